(** C115: what the reply to a call leads to. *)
From Coq Require Import String List NArith ZArith Bool Lia Arith Sorting.Sorted.
From Verif Require Import Base Value Headers AttrPath Ctx CelProps CelEval Sse Body ValueBytes Tasks Exec Config Legacy Blueprint Factory Filter
  P_Frame P_Apply P_Exec P_Run P_Inv P_Ids P_Plan P_Deps P_Order P_Term P_Bar P_Cfg P_Hist P_Grow P_Wake P_Fail P_Head P_Fed P_Told P_Eff P_Scope P_Props P_Eval P_Verdict Demo DemoCfg
  Prop_Headers Prop_Order Prop_Term Prop_Guard Prop_Wake Prop_Fail Prop_Know Prop_Eff Prop_Scope Prop_Reply.
From Verif Require Prop_Paths Prop_Export Prop_Writes.
Import ListNotations.
Open Scope list_scope.

(** * Specifications *)
(** of the reply [v], named [n], the text [x] says [r], whatever happened and whatever else is known; [None]: it
    cannot be evaluated *)
Definition says_of (E : env) (n : text) (v : value) (x : text) (r : option value) : Prop :=
  exists e, o_parse E x = Some e /\ about n e = true /\ forall past vs, tget n vs = Some v -> o_cel E past e vs = r.
(** what a list of reply actions comes to *)
Inductive ending :=
| Denied (fs : list (text * value))   (* the reply [fs] is sent *)
| Aborted.                            (* the reply to a failure is sent *)
Definition untrue (r : option value) : Prop := r <> Some (VBool true).
Inductive verdict (E : env) (n : text) (v : value) : nat -> list taction -> option (nat * ending) -> Prop :=
| vd_end i : verdict E n v i [] None
(** the action is not for this reply, or that cannot be told *)
| vd_skip i p tm g sq op rs r b : match op with OpGrpc _ _ _ _ | OpStore _ _ _ => False | _ => True end ->
    says_of E n v p b -> untrue b -> verdict E n v (S i) rs r -> verdict E n v i (mkT p tm g sq op :: rs) r
(** the denial cannot be evaluated *)
| vd_lost i p tm g sq d rs r : says_of E n v p (Some (VBool true)) -> says_of E n v d None ->
    verdict E n v (S i) rs r -> verdict E n v i (mkT p tm g sq (OpDeny d) :: rs) r
(** the action goes on to the next one *)
| vd_pass i p g sq op rs r : match op with OpGrpc _ _ _ _ | OpDeny _ => False | _ => True end ->
    verdict E n v (S i) rs r -> verdict E n v i (mkT p false g sq op :: rs) r
| vd_deny i p g sq d rs ty fs : says_of E n v p (Some (VBool true)) -> says_of E n v d (Some (VStruct ty fs)) ->
    verdict E n v i (mkT p true g sq (OpDeny d) :: rs) (Some (i, Denied fs))
| vd_fail i p g sq m rs : says_of E n v p (Some (VBool true)) ->
    verdict E n v i (mkT p true g sq (OpFail m) :: rs) (Some (i, Aborted)).
(** the id of a reply action *)
Definition reply_id (a : text) (i : nat) : text := a ++ dot :: nat_text i.
(** no reply, and processing does not end *)
Definition silent (h : log) : Prop := forall e, In e h -> match e with EvReply _ _ _ _ | EvTerminate _ => False | _ => True end.
(** the verdict [r] is carried out in [h], by the reply actions of [a] from the [i]th to the [n]th *)
Definition carried (cfg : plugin_cfg) (a : text) (i n : nat) (r : option (nat * ending)) (h : log) : Prop :=
  match r with
  | None => exists rest mid, h = rest ++ mid /\ silent mid /\ evaluated mid = map (reply_id a) (seq i (n - i))
  | Some (j, e) => exists rest sent mid, h = rest ++ sent ++ EvEval (reply_id a j) :: mid /\ silent mid /\ evaluated mid = map (reply_id a) (seq i (j - i)) /\
      match e with
      | Denied fs => exists st hd tr body ok, says fs st hd body /\ tracker_header cfg tr /\
          (if ok : bool then sent = [EvTerminate (reply_id a j); EvReply st (hd ++ tr) body true; EvMetric MDenied] /\ evaluated rest = [] else sent = [EvReply st (hd ++ tr) body false; EvMetric MDenied])
      | Aborted => evaluated rest = [] /\ exists tr ok, tracker_header cfg tr /\ sent = [EvReply 500 tr (Some ise_body) ok; EvMetric MDenied; EvTerminate (reply_id a j); EvMetric MErrors]
      end
  end.
(** the headers [m] cannot be read: the host does not have them, or something was exported in their place *)
Definition unreadable (E : env) (m : maptype) (past : log) : Prop :=
  (forall h, h_map E past m <> HOk h) \/
  exists hp b, In (EvSetProp hp b true) past /\ exported_as (match m with MReq => tx "request.headers" | MResp => tx "response.headers" end) hp.
(** what the action [x] writes when it is evaluated and its condition holds *)
Definition writes_of (E : env) (n : text) (v : value) (x : taction) (past : log) (evs : log) : Prop :=
  match x with
  | mkT p _ _ _ (OpStore path y true) => forall w, says_of E n v p (Some (VBool true)) -> says_of E n v y (Some w) -> Prop_Export.cel_ok w -> Prop_Export.portable w ->
      exists prop bytes ok d, evs = [EvSetProp prop bytes ok] /\ exported_as path prop /\ Prop_Export.shows w d /\ Prop_Export.read_back w bytes d
  | mkT p _ _ _ (OpHeaders m y) => forall items, says_of E n v p (Some (VBool true)) -> says_of E n v y (Some (VList items)) ->
      exists pairs, converted items pairs /\ (pairs <> [] -> ~ unreadable E m past -> exists h0 h ok, current E m past h0 /\ Prop_Writes.changed pairs h0 h /\ evs = [EvSetMap m h ok])
  | _ => True
  end.
(** before the verdict [r] the actions write what they are for; [base] had happened when the reply came *)
Definition written (E : env) (a n : text) (v : value) (i : nat) (rs : list taction) (r : option (nat * ending)) (base h : log) : Prop :=
  forall j x, nth_error rs j = Some x -> match r with Some (k, _) => i + j < k | None => True end ->
  exists after evs before, h = after ++ evs ++ EvEval (reply_id a (i + j)) :: before ++ base /\ writes_of E n v x (EvEval (reply_id a (i + j)) :: before ++ base) evs.
(** a name only the reply can have *)
Definition own_name (E : env) (cfg : plugin_cfg) (s : action_set) (n : text) : Prop :=
  ~ In n taken /\ is_host_root n = false /\ forall name, stores E cfg s name -> name <> n /\ forall r, name <> n ++ dot :: r.

(** * Lemmas *)
Lemma insert_scope id a n v B : ordered B -> is_ancestor a id = true ->
  (forall s bs, In (s, bs) B -> bs <> [] -> is_ancestor s id = true -> text_leb s a = true) ->
  tget n (rev (flat_map (fun sl : text * list (text * value) => if is_ancestor (fst sl) id then snd sl else []) (bind_insert a n v B))) = Some v.
Proof.
  intros Ho Ha. assert (Hone : forall l, tget n (rev (l ++ [(n, v)])) = Some v).
  { intros l. rewrite rev_app_distr. cbn [rev app aget]. now rewrite text_eqb_refl. }
  assert (Hempty : forall L, (forall s bs, In (s, bs) L -> bs <> [] -> is_ancestor s id = true -> False) -> flat_map (fun sl : text * list (text * value) => if is_ancestor (fst sl) id then snd sl else []) L = []).
  { induction L as [|[s bs] L IH]; intros H; [reflexivity|]. cbn [flat_map fst snd]. rewrite IH by (intros; eapply H; eauto; now right). rewrite app_nil_r.
    destruct (is_ancestor s id) eqn:Hs; [|reflexivity]. destruct bs; [reflexivity|]. exfalso. eapply (H s); [now left|discriminate|exact Hs]. }
  induction Ho as [|[s l] B Ho IH Hlt]; intros H.
  - cbn [bind_insert flat_map fst snd]. rewrite Ha, app_nil_r. apply (Hone []).
  - cbn [bind_insert]. rewrite Forall_forall in Hlt. destruct (text_eqb a s) eqn:He; [apply text_eqb_eq in He as <-|destruct (text_leb a s) eqn:Hl].
    + cbn [flat_map fst snd]. rewrite Ha, (Hempty B), app_nil_r; [apply Hone|]. intros s bs Hi Hne Hs. specialize (Hlt _ Hi). unfold keys_lt in Hlt. cbn in Hlt.
      specialize (H s bs (or_intror Hi) Hne Hs). congruence.
    + rewrite (flat_map_concat_map _ (_ :: _ :: _)). cbn [map concat fst snd]. rewrite <- (flat_map_concat_map _ B). rewrite Ha.
      change ((if is_ancestor s id then l else []) ++ flat_map _ B) with (flat_map (fun sl : text * list (text * value) => if is_ancestor (fst sl) id then snd sl else []) ((s, l) :: B)).
      rewrite (Hempty ((s, l) :: B)), app_nil_r; [apply (Hone [])|]. intros s' bs [[= <- <-]|Hi] Hne Hs.
      * specialize (H s l (or_introl eq_refl) Hne Hs). pose proof (leb_antisym _ _ H Hl). subst s. now rewrite text_eqb_refl in He.
      * specialize (H s' bs (or_intror Hi) Hne Hs). pose proof (leb_trans _ _ _ H Hl) as H'. specialize (Hlt _ Hi). unfold keys_lt in Hlt. cbn in Hlt. congruence.
    + cbn [flat_map fst snd]. rewrite tget_rev_app. now rewrite IH by (intros; eapply H; eauto; now right).
Qed.

Lemma named_test E n v x r pe vs c : says_of E n v x r -> parse_expr E x = Some pe -> ~ In n taken -> free n c -> tget n vs = Some v ->
  exists vs', tget n vs' = Some v /\ eval_in E pe vs c = (match r with Some w => RAvail w | None => RErr end, vs', c).
Proof.
  intros (e & Hp & Ha & Ho) Hx Ht Hf Hv. unfold parse_expr in Hx. rewrite Hp in Hx. injection Hx as <-.
  destruct (about_eval E n e vs c Ha) as (vs' & H1 & H2); try (intros ->; apply Ht; cbn; tauto); [intros H; apply Ht; cbn in *; tauto|exact Hf|].
  exists vs'. rewrite Hv in H2. split; [exact H2|]. unfold eval_in. rewrite H1. change (ex_ast (expr_of e)) with e. now rewrite (Ho _ _ H2).
Qed.
Lemma untrue_test E pe vs c r vs' c' : eval_in E pe vs c = (match r with Some w => RAvail w | None => RErr end, vs', c') -> untrue r ->
  test_in E pe vs c = (RAvail false, vs', c') \/ test_in E pe vs c = (RErr, vs', c').
Proof.
  intros H Hu. unfold test_in. rewrite H. destruct r as [[| []| | | | | | | | | |]|]; auto. now destruct Hu.
Qed.
(** the task of a reply action that is not a call *)
Definition built_as (E : env) (x : taction) (id : text) (t : task) : Prop :=
  match x with
  | mkT p tm _ _ op => exists pe, parse_expr E p = Some pe /\
      match op with
      | OpDeny d => exists de, parse_expr E d = Some de /\ t = TReply id pe de tm
      | OpHeaders m h => exists he, parse_expr E h = Some he /\ t = THeaders id pe he m tm
      | OpFail _ => t = TFail id pe tm
      | OpStore path y ex => exists ye bs, parse_expr E y = Some ye /\ t = TStore id pe ye path ex tm bs
      | OpGrpc _ _ _ _ => False
      end
  end.
Definition leaf (x : taction) : Prop := match x with mkT _ _ _ _ (OpGrpc _ _ _ _) => False | _ => True end.
Lemma leaf_task E cfg fa s ts p t x : serves E cfg fa s -> goes E fa ts p -> In t ts -> has_action E cfg s (t_id t) x -> leaf x -> built_as E x (t_id t) (core t).
Proof.
  intros Hs Hg Hi (svs & Hsv & Hx) Hl. destruct (reach_build _ _ _ _ Hg) as (p0 & Hb). pose proof (v_b _ _ _ _ _ _ (served_V _ _ _ _ _ Hs Hb _ _ Hg)) as HB.
  assert (Hw : wf_q t) by (pose proof (w_ts _ _ (t_w _ _ _ _ (b_t _ _ _ _ _ HB))) as Hw; rewrite Forall_forall in Hw; auto).
  assert (K : forall nd, In nd (nodes t) -> n_id nd = t_id t -> describes E svs (t_id t) x nd).
  { intros nd Hn Hid. assert (Hn' : In nd (nodess (p_queue p0))).
    { apply (b_nodes _ _ _ _ _ HB). apply in_flat_map. exists t. split; [|exact Hn]. unfold items. apply in_or_app. now left. }
    destruct (serves_nodes _ _ _ _ _ Hs Hb _ Hn') as [(svs' & a' & x' & Hsv' & Hc' & Hd)|Hd].
    - assert (svs' = svs) as -> by congruence. assert (a' = t_id t) as ->.
      { rewrite <- Hid. destruct x' as [px tmx gx sx op]. destruct Hd as (pe & _ & Hd). destruct op, nd; try easy; now destruct Hd as [-> _]. }
      now rewrite (configured_unique _ _ _ _ _ _ Hx Hc').
    - exfalso. rewrite <- Hid in Hx. destruct nd; try destruct Hd as [-> _]; try (now apply configured_not_dev in Hx); destruct Hd. }
  rewrite <- (nodes_core t), <- (core_id t) in K. apply wf_q_core in Hw. rewrite <- (core_id t) in *.
  destruct x as [px tmx gx sx op]. destruct (core t) eqn:Hc; try easy; cbn [t_id nodes n_id] in *.
  - specialize (K _ (or_introl eq_refl) eq_refl). destruct K as (pe & _ & K). destruct op; easy.
  - exfalso. assert (forall u, core u <> TFailureMode t0 abort) as Hne by (clear; induction u; cbn; congruence). eapply Hne, Hc.
  - exfalso. assert (forall u, core u <> TTracing t0) as Hne by (clear; induction u; cbn; congruence). eapply Hne, Hc.
  - specialize (K _ (or_introl eq_refl) eq_refl). destruct K as (pe & Hp & K). destruct op; try easy. destruct K as (_ & -> & ->). exists pe. auto.
  - specialize (K _ (or_introl eq_refl) eq_refl). destruct K as (pe & Hp & K). destruct op; try easy. destruct K as (_ & -> & Hh & -> & ->). exists pe. eauto.
  - specialize (K _ (or_introl eq_refl) eq_refl). destruct K as (pe & Hp & K). destruct op; try easy. destruct K as (_ & -> & Hh & ->). exists pe. eauto.
  - specialize (K _ (or_introl eq_refl) eq_refl). destruct K as (pe & Hp & K). destruct op; try easy. destruct K as (_ & -> & Hh & -> & -> & ->). exists pe. eauto 6.
  - exfalso. apply configured_number in Hx as (i & Hx). now apply tu_not_number in Hx.
Qed.
Lemma goes_F E fa p0 ts p : build E fa (ctx0 [EvReqHeaders]) = BOk p0 -> goes E fa ts p ->
  F E (at_work E fa) (length (p_td p0)) (nodess (p_queue p0)) (c_track (p_ctx p0)) ts p.
Proof.
  intros Hb Hg. refine (proj2 (reach_inv_b E fa _ _ (F_finv E fa (length (p_td p0)) (nodess (p_queue p0)) (c_track (p_ctx p0))) _ ts p Hg)).
  intros p1 Hb1. assert (p1 = p0) as -> by congruence. now apply F_start.
Qed.
Lemma goes_free E cfg fa s n t ts p : serves E cfg fa s -> own_name E cfg s n -> goes E fa (t :: ts) p -> free n (emit (EvEval (t_id t)) (p_ctx p)).
Proof.
  intros Hs (_ & Hr & Hst) Hg. destruct (facts_at_work _ _ _ _ Hs (t_id t) (emit (EvEval (t_id t)) (p_ctx p))) as [_ _ _ F3 F4 _ _]; [now exists t, ts, p|].
  assert (K : forall path v, tget path (c_vals (p_ctx p)) = Some v -> stores E cfg s path).
  { intros path v Hv. specialize (F3 path). cbn [emit with_log c_vals] in F3. rewrite Hv in F3. destruct F3 as (e0 & after & now & b & past & pr & tm & g & sq & y & export & pe & ye & _ & Ha & _). exists b, pr, tm, g, sq, y, export. exact Ha. }
  split; [|split].
  - cbn [emit with_log c_vals]. destruct (tget n (c_vals (p_ctx p))) as [w|] eqn:Hw; [|reflexivity]. exfalso. now destruct (Hst _ (K _ _ Hw)).
  - intros Hi. now destruct (Hst _ (F4 _ Hi)).
  - intros [H|[(q & w & Hi & r & ->)|(q & Hi & r & ->)]]; [congruence| |destruct (Hst _ (F4 _ Hi)) as [_ H]; exact (H r eq_refl)].
    cbn [emit with_log c_vals] in Hi. assert (exists w', tget (n ++ dot :: r) (c_vals (p_ctx p)) = Some w') as (w' & Hw').
    { destruct (tget (n ++ dot :: r) (c_vals (p_ctx p))) eqn:H; [eauto|]. exfalso. apply (aget_None text_eqb text_eqb_eq) in H. apply H. apply in_map_iff. now exists (n ++ dot :: r, w). }
    destruct (Hst _ (K _ _ Hw')) as [_ H]. exact (H r eq_refl).
Qed.
Lemma leaf_not_call E x id t : built_as E x id t -> ~ is_call_task t.
Proof. destruct x as [p tm g sq op]. intros (pe & _ & H). destruct op; [easy|..]; [destruct H as (? & _ & ->)|destruct H as (? & _ & ->)|destruct H as (? & ? & _ & ->)|subst t]; easy. Qed.
Lemma leaf_binds E x t c o c' : built_as E x (t_id t) (core t) -> store_fed E (c_log c) t -> step E t c = (o, c') -> c_binds c' = c_binds c.
Proof.
  intros Hb Hsf Hst. apply step_apply in Hst as (c1 & Ha & K1 & _). rewrite K1.
  destruct x as [p tm g sq op]. destruct Hb as (pe & _ & Hb). destruct op; [easy|..].
  3:{ destruct Hb as (ye & bs & _ & Hc). apply (core_store_binds E t) in Ha; [exact Ha|]. now rewrite Hc. }
  all: apply (apply_kept E (fun _ _ => True)) in Ha; [|exact Logic.I|now apply (store_fed_app E [_])]; [destruct Hb as (y & _ & Hc) || rename Hb into Hc; rewrite Hc in Ha; exact (proj1 Ha)].
Qed.
Lemma core_step E t c o c' : plain t -> ~ is_call_task (core t) -> step E t c = (o, c') ->
  exists o0 c1, apply E (core t) (emit (EvEval (t_id t)) c) = (o0, c1) /\ kind_of o0 = kind_of o /\ c_log c' = ghost t o ++ c_log c1 /\ c_track c' = c_track c1.
Proof.
  intros Hp Hn Hs. apply step_log in Hs as (c1 & Ha & H1 & H2). destruct (plain_same _ _ _ _ _ Hp Hn Ha) as (o0 & A1 & A2). exists o0, c1. auto.
Qed.
(** the evaluation of a reply action that does not end processing *)
Definition went_on (t : task) (c : ctx) (o : outcome) (c' : ctx) : Prop :=
  (forall f, o <> OTerminate f) /\ exists evs, c_log c' = evs ++ EvEval (t_id t) :: c_log c /\ silent evs /\ evaluated evs = [].
Lemma went E t c o c' o0 c1 evs : apply E (core t) (emit (EvEval (t_id t)) c) = (o0, c1) -> kind_of o0 = kind_of o -> c_log c' = ghost t o ++ c_log c1 ->
  (forall b, kind_of o0 <> KTerm b) -> c_log c1 = evs ++ EvEval (t_id t) :: c_log c -> silent evs -> evaluated evs = [] -> went_on t c o c'.
Proof.
  intros Ha Hk Hl Hn H1 H2 H3. split; [intros f ->; rewrite Hk in Hn; eapply Hn; reflexivity|]. exists (ghost t o ++ evs). rewrite Hl, H1, app_assoc. split; [reflexivity|].
  assert (G : silent (ghost t o) /\ evaluated (ghost t o) = []).
  { destruct o; cbn; (split; [|reflexivity]); intros e He; destruct He as [<-|[]] || destruct He; try exact Logic.I. rewrite Hk in Hn. cbn in Hn. now destruct (Hn (match core t0 with TNoop => false | _ => true end)). }
  destruct G as [G1 G2]. split; [intros e He; apply in_app_iff in He as [He|He]; [apply (G1 _ He)|apply (H2 _ He)]|].
  rewrite (evaluated_app (ghost t o) evs), H3, G2. reflexivity.
Qed.
Lemma silent_nil : silent []. Proof. intros e []. Qed.
Section Leaf.
  Variables (E : env) (cfg : plugin_cfg) (fa : factory) (s : action_set) (n : text) (v : value) (t : task) (ts : list task) (p : pipe) (o : outcome) (c : ctx).
  Hypothesis Hs : serves E cfg fa s.
  Hypothesis Hn : own_name E cfg s n.
  Hypothesis Hg : goes E fa (t :: ts) p.
  Hypothesis Hv : tget n (scope_vars (t_id t) (p_ctx p)) = Some v.
  Hypothesis Hst : step E t (p_ctx p) = (o, c).
  Let c0 := emit (EvEval (t_id t)) (p_ctx p).
  Lemma leaf_core x : has_action E cfg s (t_id t) x -> leaf x -> built_as E x (t_id t) (core t) /\
    exists o0 c1, apply E (core t) c0 = (o0, c1) /\ kind_of o0 = kind_of o /\ c_log c = ghost t o ++ c_log c1 /\ c_track c = c_track c1.
  Proof.
    intros Hx Hl. assert (Hb : built_as E x (t_id t) (core t)) by (eapply leaf_task; [exact Hs|exact Hg|now left|exact Hx|exact Hl]).
    split; [exact Hb|]. apply core_step; [|eapply leaf_not_call; exact Hb|exact Hst].
    destruct (reach_build _ _ _ _ Hg) as (p0 & Hb0). pose proof (f_plain _ _ _ _ _ _ _ (goes_F _ _ _ _ _ Hb0 Hg)) as Hp. apply plain_items in Hp as (Hp & _). now inversion Hp.
  Qed.
  Lemma said x r pe : says_of E n v x r -> parse_expr E x = Some pe ->
    exists vs', tget n vs' = Some v /\ eval_in E pe (scope_vars (t_id t) c0) c0 = (match r with Some w => RAvail w | None => RErr end, vs', c0).
  Proof. intros H1 H2. eapply named_test; eauto; [apply Hn|exact (goes_free _ _ _ _ _ _ _ _ Hs Hn Hg)]. Qed.
  Lemma said_next x r pe vs : says_of E n v x r -> parse_expr E x = Some pe -> tget n vs = Some v ->
    exists vs', tget n vs' = Some v /\ eval_in E pe vs c0 = (match r with Some w => RAvail w | None => RErr end, vs', c0).
  Proof. intros H1 H2 H3. eapply named_test; eauto; [apply Hn|exact (goes_free _ _ _ _ _ _ _ _ Hs Hn Hg)]. Qed.
  Lemma skip_step px tm g sq op b : has_action E cfg s (t_id t) (mkT px tm g sq op) -> match op with OpGrpc _ _ _ _ | OpStore _ _ _ => False | _ => True end ->
    says_of E n v px b -> untrue b -> went_on t (p_ctx p) o c.
  Proof.
    intros Hx Hop Hb Hu. destruct (leaf_core _ Hx) as [(pe & Hp & Hc) (o0 & c1 & Ha & Hk & Hl & _)]; [destruct op; easy|].
    destruct (said _ _ _ Hb Hp) as (vs' & _ & He). apply untrue_test in He; [|exact Hu].
    assert (Hr : c1 = c0 /\ (o0 = ODone \/ o0 = OFailed)).
    { destruct op; try easy; [destruct Hc as (y & _ & Hc)|destruct Hc as (y & _ & Hc)|]; rewrite Hc in Ha; cbn [apply] in Ha.
      - unfold apply_reply in Ha. destruct He as [He|He]; rewrite He in Ha; injection Ha as <- <-; auto.
      - unfold apply_headers in Ha. destruct He as [He|He]; rewrite He in Ha; injection Ha as <- <-; auto.
      - unfold apply_fail in Ha. destruct He as [He|He]; rewrite He in Ha; injection Ha as <- <-; auto. }
    destruct Hr as [-> Hr]. eapply (went E t _ o c o0 c0 []); eauto; [|apply silent_nil].
    intros b0. destruct Hr as [->| ->]; discriminate.
  Qed.
  Lemma lost_step px tm g sq d : has_action E cfg s (t_id t) (mkT px tm g sq (OpDeny d)) -> says_of E n v px (Some (VBool true)) -> says_of E n v d None -> went_on t (p_ctx p) o c.
  Proof.
    intros Hx Hb Hd. destruct (leaf_core _ Hx Logic.I) as [(pe & Hp & de & Hdp & Hc) (o0 & c1 & Ha & Hk & Hl & _)].
    destruct (said _ _ _ Hb Hp) as (vs1 & V1 & E1). destruct (said_next _ _ _ _ Hd Hdp V1) as (vs2 & V2 & E2).
    rewrite Hc in Ha. cbn [apply] in Ha. unfold apply_reply, test_in in Ha. rewrite E1 in Ha. rewrite E2 in Ha. injection Ha as <- <-.
    eapply (went E t _ o c OFailed c0 []); eauto; [|discriminate|apply silent_nil].
    rewrite Hc. cbn [apply]. unfold apply_reply, test_in. fold c0. rewrite E1. now rewrite E2.
  Qed.
  Lemma pass_step px g sq op : has_action E cfg s (t_id t) (mkT px false g sq op) -> match op with OpGrpc _ _ _ _ | OpDeny _ => False | _ => True end -> went_on t (p_ctx p) o c.
  Proof.
    intros Hx Hop. destruct (leaf_core _ Hx) as [(pe & Hp & Hc) (o0 & c1 & Ha & Hk & Hl & _)]; [destruct op; easy|]. pose proof Ha as Ha'.
    destruct (reach_build _ _ _ _ Hg) as (p0 & Hb0). pose proof (f_head _ _ _ _ _ _ _ (goes_F _ _ _ _ _ Hb0 Hg)) as Hh.
    assert (Hh0 : hcache E c0) by (apply hc_emit; [intros ? (? & [=])|exact Hh]).
    assert (exists nd evs, c_log c1 = evs ++ c_log c0 /\ does E (fun _ _ => True) (c_track c0) (c_log c0) nd evs (kind_of o0) /\
      match nd with NHdr _ _ _ _ false | NStore _ _ _ _ _ false | NFail _ _ false => True | _ => False end) as (nd & evs & H1 & H2 & H3).
    { destruct op; try easy; [destruct Hc as (y & _ & Hc)|destruct Hc as (y & bs & _ & Hc)|]; rewrite Hc in Ha.
      - apply (headers_does E (fun _ _ => True)) in Ha as (evs & H1 & H2); [|exact Logic.I|exact Hh0]. exists (NHdr (t_id t) pe y target false), evs. auto.
      - apply (store_does E (fun _ _ => True)) in Ha as (evs & H1 & H2); [exists (NStore (t_id t) pe y path export false), evs; auto|exact Logic.I|].
        destruct (fed_goes _ _ _ _ Hg) as [_ Hf]. inversion Hf as [|? ? Hf1 _]; subst. apply fed_store_fed in Hf1. apply (store_fed_app E [EvEval (t_id t)]) in Hf1. unfold store_fed in Hf1. now rewrite Hc in Hf1.
      - apply (fail_does E (fun _ _ => True)) in Ha as (evs & H1 & H2); [|exact Logic.I]. exists (NFail (t_id t) pe false), evs. auto. }
    eapply (went E t _ o c o0 c1 evs); eauto.
    - intros b Hb. rewrite Hb in H2. inversion H2; subst; try easy; try (match goal with H : idle_kind _ |- _ => destruct H; discriminate end); try (destruct tm; easy).
      destruct ok; [destruct tm; easy|]. match goal with H : idle_kind _ |- _ => destruct H; discriminate end.
    - inversion H2; subst; try easy; intros e He; cbn in He; try easy; destruct He as [<-|[]]; exact Logic.I.
    - inversion H2; subst; easy.
  Qed.
  Lemma final_kind d : kind_of o = KTerm d -> exists f, o = OTerminate f /\ is_final f /\ core f = (if d then default_reply else TNoop).
  Proof.
    intros Hk. destruct o as [|tok t'|l| |f]; try discriminate. cbn in Hk. exists f. split; [reflexivity|]. destruct (step_evaluated _ _ _ _ _ Hst) as (_ & _ & _ & Hf & _). split; [exact Hf|].
    destruct (final_core _ Hf) as [Hc|Hc]; rewrite Hc in Hk |- *; injection Hk as <-; reflexivity.
  Qed.
  Lemma track0 tr fap : try_from E cfg = Some fap -> fap = fa -> tracked (c_track (p_ctx p)) tr -> tracker_header cfg tr.
  Proof.
    intros Hf -> Ht. destruct (reach_build _ _ _ _ Hg) as (p0 & Hb0). rewrite (f_tk _ _ _ _ _ _ _ (goes_F _ _ _ _ _ Hb0 Hg)) in Ht. eapply request_tracked; eauto.
  Qed.
  Lemma deny_step px g sq d ty fs : try_from E cfg = Some fa -> has_action E cfg s (t_id t) (mkT px true g sq (OpDeny d)) -> says_of E n v px (Some (VBool true)) -> says_of E n v d (Some (VStruct ty fs)) ->
    exists st hd tr body ok, says fs st hd body /\ tracker_header cfg tr /\
      if ok : bool then (exists f, o = OTerminate f /\ is_final f /\ core f = TNoop) /\ c_log c = EvTerminate (t_id t) :: EvReply st (hd ++ tr) body true :: EvMetric MDenied :: EvEval (t_id t) :: c_log (p_ctx p)
      else o = OFailed /\ c_log c = EvFailed (t_id t) :: EvReply st (hd ++ tr) body false :: EvMetric MDenied :: EvEval (t_id t) :: c_log (p_ctx p).
  Proof.
    intros Hf Hx Hb Hd. destruct (leaf_core _ Hx Logic.I) as [(pe & Hp & de & Hdp & Hc) (o0 & c1 & Ha & Hk & Hl & _)].
    destruct (said _ _ _ Hb Hp) as (vs1 & V1 & E1). destruct (said_next _ _ _ _ Hd Hdp V1) as (vs2 & V2 & E2).
    rewrite Hc in Ha. cbn [apply] in Ha. unfold apply_reply, test_in in Ha. rewrite E1 in Ha. rewrite E2 in Ha.
    destruct (tracker E c0) as [tr c3] eqn:H4. pose proof (tracker_xrid _ _ _ _ H4) as X4. unfold send_reply in Ha. set (ok := h_reply E _ _ _ _) in Ha. injection Ha as <- <-.
    exists (deny_status fs), (deny_headers fs), (match tr with Some kv => [kv] | None => [] end), (deny_body fs), ok. split; [apply says_deny|]. split.
    - eapply track0; eauto. unfold tracker in H4. change (c_track c0) with (c_track (p_ctx p)) in H4. destruct (c_track (p_ctx p)) as [nm|]; [|injection H4 as <- _; reflexivity].
      destruct (request_id E c0) as [rid c4]. injection H4 as <- _. cbn. eauto.
    - cbn [emit with_log c_log] in Hl. rewrite (xrid_log _ _ X4) in Hl. unfold c0 in Hl. cbn [emit with_log c_log] in Hl. destruct ok.
      + cbn [kind_of core] in Hk. symmetry in Hk. destruct (final_kind _ Hk) as (f & Ho & Hf1 & Hf2). split; [now exists f|]. rewrite Hl, Ho. reflexivity.
      + cbn [kind_of] in Hk. assert (Ho : o = OFailed) by (destruct o; try discriminate Hk; reflexivity). split; [exact Ho|]. rewrite Hl, Ho. reflexivity.
  Qed.
  Lemma fail_step px g sq m : has_action E cfg s (t_id t) (mkT px true g sq (OpFail m)) -> says_of E n v px (Some (VBool true)) ->
    exists f, o = OTerminate f /\ is_final f /\ core f = default_reply /\ c_track c = c_track (p_ctx p) /\ c_log c = EvTerminate (t_id t) :: EvMetric MErrors :: EvEval (t_id t) :: c_log (p_ctx p).
  Proof.
    intros Hx Hb. destruct (leaf_core _ Hx Logic.I) as [(pe & Hp & Hc) (o0 & c1 & Ha & Hk & Hl & Htk)].
    destruct (said _ _ _ Hb Hp) as (vs1 & V1 & E1).
    rewrite Hc in Ha. cbn [apply] in Ha. unfold apply_fail, test_in in Ha. rewrite E1 in Ha. injection Ha as <- <-.
    symmetry in Hk. destruct (final_kind _ Hk) as (f & Ho & Hf1 & Hf2). exists f. split; [exact Ho|]. split; [exact Hf1|]. split; [exact Hf2|]. split; [exact Htk|]. rewrite Hl, Ho. reflexivity.
  Qed.
  Lemma export_step px tm g sq path x w bytes : has_action E cfg s (t_id t) (mkT px tm g sq (OpStore path x true)) -> says_of E n v px (Some (VBool true)) -> says_of E n v x (Some w) -> value_bytes w = Some bytes ->
    exists prop ok, exported_as path prop /\ c_log c = ghost t o ++ EvSetProp prop bytes ok :: EvEval (t_id t) :: c_log (p_ctx p).
  Proof.
    intros Hx Hb Hv1 Hw. destruct (leaf_core _ Hx Logic.I) as [(pe & Hp & xe & bs & Hxp & Hc) (o0 & c1 & Ha & Hk & Hl & _)].
    assert (bs = BSNone) as ->.
    { destruct (fed_goes _ _ _ _ Hg) as [_ Hfd]. inversion Hfd as [|? ? Hf1 _]; subst. apply fed_bodiless in Hf1. rewrite Hc in Hf1. apply Hf1.
      destruct Hb as (e1 & P1 & A1 & _), Hv1 as (e2 & P2 & A2 & _). unfold parse_expr in Hp, Hxp. rewrite P1 in Hp. rewrite P2 in Hxp. injection Hp as <-. injection Hxp as <-.
      destruct (about_attrs _ _ A1) as (_ & B1 & B2 & _). destruct (about_attrs _ _ A2) as (_ & B3 & B4 & _). unfold bodiless. now rewrite B1, B2, B3, B4. }
    destruct (said _ _ _ Hb Hp) as (vs1 & V1 & E1). destruct (said_next _ _ _ _ Hv1 Hxp V1) as (vs2 & V2 & E2).
    rewrite Hc in Ha. cbn [apply] in Ha. unfold apply_store, store_value, test_in in Ha. rewrite E1 in Ha. rewrite E2 in Ha. rewrite Hw in Ha.
    destruct (set_attribute E (path_parse path) bytes c0) as [r c3] eqn:Hsa.
    assert (H3 : exists ok, c_log c3 = EvSetProp (kuadrant_host_path (path_parse path)) bytes ok :: c_log c0).
    { unfold set_attribute in Hsa. destruct (h_setprop E (c_log c0) _ bytes) as [[]| |] in Hsa; injection Hsa as _ <-; eexists; reflexivity. }
    destruct H3 as (ok & H3). exists (kuadrant_host_path (path_parse path)), ok. split; [apply host_name|].
    rewrite Hl. f_equal. change (EvEval (t_id t) :: c_log (p_ctx p)) with (c_log c0). rewrite <- H3. destruct r; injection Ha as _ <-; reflexivity.
  Qed.
  Lemma headers_step px tm g sq m y items : has_action E cfg s (t_id t) (mkT px tm g sq (OpHeaders m y)) -> says_of E n v px (Some (VBool true)) -> says_of E n v y (Some (VList items)) ->
    header_pairs (VList items) <> [] -> ~ unreadable E m (c_log c0) ->
    exists h0 h ok, c_log c = ghost t o ++ EvSetMap m h ok :: EvEval (t_id t) :: c_log (p_ctx p) /\ current E m (c_log c0) h0 /\ Prop_Writes.changed (header_pairs (VList items)) h0 h.
  Proof.
    intros Hx Hb Hv1 Hne Hun. destruct (leaf_core _ Hx Logic.I) as [(pe & Hp & xe & Hxp & Hc) (o0 & c1 & Ha & Hk & Hl & _)].
    destruct (said _ _ _ Hb Hp) as (vs1 & V1 & E1). destruct (said_next _ _ _ _ Hv1 Hxp V1) as (vs2 & V2 & E2).
    rewrite Hc in Ha. cbn [apply] in Ha. unfold apply_headers, test_in in Ha. rewrite E1 in Ha. rewrite E2 in Ha.
    destruct (facts_at_work _ _ _ _ Hs (t_id t) c0) as [F1 F2 _ _ _ _]; [now exists t, ts, p|].
    assert (Hr : exists h c2, read_headers E (target_path m) c0 = (RAvail h, c2)).
    { destruct (read_headers E (target_path m) c0) as [r c2] eqn:Hr. revert Hr. unfold read_headers, read_attr. destruct (cache_get (target_path m) c0) as [cv|] eqn:Hg0.
      - destruct cv as [b|h]; [|intros [= <- <-]; eauto]. exfalso. apply Hun. right.
        apply (cache_supplied E) in Hg0; [|exact F1|exact F2|destruct m; (split; [discriminate|]); intros z [<-|[<-|[]]]; vm_compute; intuition discriminate].
        inversion Hg0 as [| ? ? q ? _ Hq1 Hq2 Hh | hp b' Hi He]; subst.
        + exfalso. assert (Hq : q = target_path m) by (apply Hq2; destruct m; vm_compute; intuition discriminate). subst q.
          destruct m; inversion Hh as [? ? Hn0 _ _|? ? ? _ _ He|? _ He]; subst; cbn in *; try (apply Hn0; auto; fail); discriminate.
        + exists hp, b'. split; [exact Hi|]. destruct m; exact He.
      - destruct (fetch E (c_log c0) (target_path m)) as [cv| |] eqn:Hfe.
        + destruct (fetch_target _ _ _ _ Hfe) as (h & -> & _). intros [= <- <-]; eauto.
        + intros _. exfalso. apply Hun. left. intros h Hh. revert Hfe. destruct m; unfold fetch, target_path; change (path_eqb p_req_headers p_req_headers) with true; change (path_eqb p_resp_headers p_req_headers) with false; change (path_eqb p_resp_headers p_resp_headers) with true; cbv iota; rewrite Hh; discriminate.
        + intros _. exfalso. apply Hun. left. intros h Hh. revert Hfe. destruct m; unfold fetch, target_path; change (path_eqb p_req_headers p_req_headers) with true; change (path_eqb p_resp_headers p_req_headers) with false; change (path_eqb p_resp_headers p_resp_headers) with true; cbv iota; rewrite Hh; discriminate. }
    destruct Hr as (h & c2 & Hr). pose proof (hc_read _ _ _ _ _ Hr F2) as Hba. pose proof (ext_log _ _ (read_headers_ext _ _ _ _ _ Hr)) as Hlg.
    destruct (header_pairs (VList items)) as [|kv pairs]; [easy|]. rewrite Hr in Ha. destruct (set_headers E m (h_set_all (kv :: pairs) h) c2) as [r4 c4] eqn:H4.
    assert (H5 : exists ok, c_log c4 = EvSetMap m (h_set_all (kv :: pairs) h) ok :: c_log c2).
    { unfold set_headers in H4. cbv zeta in H4; destruct (h_setmap E (c_log c2) m _) as [[]| |]; destruct m; injection H4 as _ <-; eexists; reflexivity. }
    destruct H5 as (ok & H5). exists h, (h_set_all (kv :: pairs) h), ok. split; [|split; [|apply h_set_all_spec]].
    - rewrite Hl. f_equal. change (EvEval (t_id t) :: c_log (p_ctx p)) with (c_log c0). rewrite <- Hlg, <- H5. destruct r4; injection Ha as _ <-; reflexivity.
    - destruct Hba as [(after & past & B1 & B2)|(B1 & after & past & B2 & B3)]; [left|right]; [exists after, past; split; [exact B1|exact B2]|]. split; [exact B1|]. now exists after, past.
  Qed.
End Leaf.

(** what an evaluation leaves behind *)
Lemma writes_step E cfg fa s n v t ts p o c x : serves E cfg fa s -> own_name E cfg s n -> goes E fa (t :: ts) p -> tget n (scope_vars (t_id t) (p_ctx p)) = Some v -> step E t (p_ctx p) = (o, c) ->
  has_action E cfg s (t_id t) x -> exists evs, c_log c = ghost t o ++ evs ++ EvEval (t_id t) :: c_log (p_ctx p) /\ writes_of E n v x (EvEval (t_id t) :: c_log (p_ctx p)) evs.
Proof.
  intros Hs Hn Hg Hv Hst Hx. assert (H0 : exists evs, c_log c = ghost t o ++ evs ++ EvEval (t_id t) :: c_log (p_ctx p)).
  { pose proof Hst as H. apply step_sum in H as (evs & H). exists evs. exact (ss_log _ _ _ _ _ _ H). }
  destruct H0 as (evs & H0). exists evs. split; [exact H0|]. destruct x as [px tm g sq op]. destruct op as [| |m y|path y [|]|]; try exact Logic.I; cbn [writes_of].
  - intros items H1 H2. exists (header_pairs (VList items)). split; [apply (C68_header_lists_converted_faithfully (VList items))|]. intros Hne Hun.
    destruct (headers_step E cfg fa s n v t ts p o c Hs Hn Hg Hv Hst px tm g sq m y items Hx H1 H2 Hne Hun) as (h0 & h & ok & K1 & K2 & K3). exists h0, h, ok. split; [exact K2|]. split; [exact K3|].
    rewrite H0 in K1. apply app_inv_head in K1. apply (app_inv_tail (EvEval (t_id t) :: c_log (p_ctx p)) evs [_]). exact K1.
  - intros w H1 H2 H3 H4. destruct (Prop_Export.C91_exported_values_read_back_partial w H3 H4) as (bytes & d & D1 & D2 & D3).
    destruct (export_step E cfg fa s n v t ts p o c Hs Hn Hg Hv Hst px tm g sq path y w bytes Hx H1 H2 D1) as (prop & ok & K1 & K2). exists prop, bytes, ok, d. split; [|split; [exact K1|split; [exact D2|exact D3]]].
    rewrite H0 in K2. apply app_inv_head in K2. apply (app_inv_tail (EvEval (t_id t) :: c_log (p_ctx p)) evs [_]). exact K2.
Qed.
Lemma carried_more cfg a i n r h more : evaluated more = [] -> carried cfg a i n r h -> carried cfg a i n r (more ++ h).
Proof.
  intros Hm. destruct r as [[j [fs|]]|]; cbn [carried].
  - intros (rest & sent & mid & -> & H2 & H3 & st & hd & tr & body & ok & H4 & H5 & H6). exists (more ++ rest), sent, mid. split; [now rewrite app_assoc|]. split; [exact H2|]. split; [exact H3|].
    exists st, hd, tr, body, ok. split; [exact H4|]. split; [exact H5|]. destruct ok; [|exact H6]. destruct H6 as [H6 H7]. split; [exact H6|]. now rewrite evaluated_app, H7, Hm.
  - intros (rest & sent & mid & -> & H2 & H3 & H4 & H5). exists (more ++ rest), sent, mid. split; [now rewrite app_assoc|]. split; [exact H2|]. split; [exact H3|]. split; [now rewrite evaluated_app, H4, Hm|exact H5].
  - intros (rest & mid & -> & H). exists (more ++ rest), mid. split; [now rewrite app_assoc|exact H].
Qed.
Lemma written_more E a n v i rs r base h more : written E a n v i rs r base h -> written E a n v i rs r base (more ++ h).
Proof. intros H j x Hj Hr. destruct (H j x Hj Hr) as (after & evs & before & -> & K). exists (more ++ after), evs, before. split; [now rewrite app_assoc|exact K]. Qed.
Lemma silent_app x y : silent x -> silent y -> silent (x ++ y).
Proof. intros Hx Hy e He. apply in_app_iff in He as [He|He]; [apply (Hx _ He)|apply (Hy _ He)]. Qed.
(** after an action that goes on *)
Lemma carried_on cfg a i n r h evs : i < n -> match r with Some (j, _) => i < j | None => True end -> silent evs -> evaluated evs = [] -> carried cfg a (S i) n r h -> carried cfg a i n r (h ++ evs ++ [EvEval (reply_id a i)]).
Proof.
  intros Hi Hj Hs He. assert (K : forall mid m, i < m -> silent mid -> evaluated mid = map (reply_id a) (seq (S i) (m - S i)) -> silent (mid ++ evs ++ [EvEval (reply_id a i)]) /\ evaluated (mid ++ evs ++ [EvEval (reply_id a i)]) = map (reply_id a) (seq i (m - i))).
  { intros mid m Hm H1 H2. split; [apply silent_app; [exact H1|apply silent_app; [exact Hs|intros e [<-|[]]; exact Logic.I]]|]. rewrite !evaluated_app, He, H2. replace (m - i) with (S (m - S i)) by lia. reflexivity. }
  destruct r as [[j [fs|]]|]; cbn [carried].
  - intros (rest & sent & mid & -> & H2 & H3 & H4). destruct (K mid j Hj H2 H3) as [K1 K2]. exists rest, sent, (mid ++ evs ++ [EvEval (reply_id a i)]). split; [rewrite <- !app_assoc; reflexivity|auto].
  - intros (rest & sent & mid & -> & H2 & H3 & H4). destruct (K mid j Hj H2 H3) as [K1 K2]. exists rest, sent, (mid ++ evs ++ [EvEval (reply_id a i)]). split; [rewrite <- !app_assoc; reflexivity|auto].
  - intros (rest & mid & -> & H2 & H3). destruct (K mid n Hi H2 H3) as [K1 K2]. exists rest, (mid ++ evs ++ [EvEval (reply_id a i)]). split; [rewrite <- !app_assoc; reflexivity|auto].
Qed.
Lemma verdict_bound E n v i rs r : verdict E n v i rs r -> match r with Some (j, _) => i <= j | None => True end.
Proof. induction 1; auto; destruct r as [[j e]|]; auto; lia. Qed.
Section Replies.
  Variables (E : env) (cfg : plugin_cfg) (fa : factory) (s : action_set) (n : text) (v : value) (a : text) (B : list (text * list (text * value))).
  Hypothesis Hf : try_from E cfg = Some fa.
  Hypothesis Hs : serves E cfg fa s.
  Hypothesis Hn : own_name E cfg s n.
  Hypothesis HC : cel_constants E.
  Hypothesis Hscope : forall j x c, leaf x -> has_action E cfg s (reply_id a j) x -> c_binds c = B -> tget n (scope_vars (reply_id a j) c) = Some v.
  Lemma default_sent t ts p o c f : goes E fa (t :: ts) p -> step E t (p_ctx p) = (o, c) -> c_track c = c_track (p_ctx p) -> is_final f -> core f = default_reply ->
    exists tr ok, tracker_header cfg tr /\ c_log (run_terminal E f c) = EvReply 500 tr (Some ise_body) ok :: EvMetric MDenied :: c_log c.
  Proof.
    intros Hg Hst Htk H1 H2. destruct (default_effect E f c HC H1 H2) as (h & ok & Hl). destruct (final_does E f c H1) as (evs & L1 & _ & L2).
    rewrite Hl in L1. apply app_inv_tail in L1. subst evs. destruct L2 as (_ & k & L2); [discriminate|].
    destruct (reach_build _ _ _ _ Hg) as (p0 & Hb0). assert (Ht : tracker_header cfg h).
    { inversion L2 as [| |? ? ? ? ty fs tr ok' P1 P2 P3| | | | | | | | | | | | | |]; subst.
      destruct P2 as (x0 & x1 & vs' & vs0 & x2 & _ & _ & _ & _ & P2). destruct (proj2 (HC (c_log c) vs0)) as (ty' & Q).
      change (ex_ast (expr_of default_deny)) with default_deny in P2. rewrite Q in P2. injection P2 as _ <-.
      eapply request_tracked; [exact Hf|exact Hb0|]. rewrite <- (f_tk _ _ _ _ _ _ _ (goes_F _ _ _ _ _ Hb0 Hg)), <- Htk. exact P3. }
    exists h, ok. split; [exact Ht|exact Hl].
  Qed.
  Lemma replies_run base : forall i rs r, verdict E n v i rs r -> forall ks rest p b p' more,
    map t_id ks = map (reply_id a) (seq i (length rs)) -> Forall (fun t => t_deps t = []) ks ->
    (forall j x, nth_error rs j = Some x -> has_action E cfg s (reply_id a (i + j)) x) ->
    goes E fa (ks ++ rest) p -> c_binds (p_ctx p) = B -> process E (ks ++ rest) p = (b, p') -> c_log (p_ctx p) = more ++ base ->
    exists h, c_log (p_ctx p') = h ++ c_log (p_ctx p) /\ carried cfg a i (i + length rs) r h /\ written E a n v i rs r base (c_log (p_ctx p')).
  Proof.
    intros i rs r Hvd. induction Hvd as [i|i px tm g sq op rs r bb Hop Hb Hu Hvd IH|i px tm g sq d rs r Hb Hd Hvd IH|i px g sq op rs r Hop Hvd IH|i px g sq d rs ty fs Hb Hd|i px g sq m rs Hb];
      intros ks rest p b p' more Hids Hdeps Hact Hg HB Hp Hbase.
    { destruct ks; [|discriminate]. apply process_added in Hp as (new & H1 & _). exists new. split; [exact H1|]. split; [exists new, []; rewrite app_nil_r, Nat.add_0_r, Nat.sub_diag; split; [reflexivity|split; [apply silent_nil|reflexivity]]|].
      intros j x Hj. destruct j; discriminate. }
    all: destruct ks as [|t ks]; [discriminate|]; cbn [map length seq] in Hids; injection Hids as Hid Hids; apply Forall_cons_iff in Hdeps as [Hd0 Hdeps'];
      cbn [app process] in Hp; unfold blocked in Hp; rewrite Hd0 in Hp; cbn [existsb] in Hp; destruct (step E t (p_ctx p)) as [o c] eqn:Hst;
      pose proof (Hact 0 _ eq_refl) as Hx; rewrite Nat.add_0_r, <- Hid in Hx.
    all: match type of Hx with has_action _ _ _ _ ?x => assert (Hlf : leaf x) by (try (destruct op; easy); exact Logic.I); pose proof (Hscope i x (p_ctx p) Hlf) as Hv; rewrite <- Hid in Hv; specialize (Hv Hx HB) end.
    all: destruct (writes_step _ _ _ _ _ _ _ _ _ _ _ _ Hs Hn Hg Hv Hst Hx) as (evs & Hev & Hwr).
    all: pose proof (leaf_task _ _ _ _ _ _ _ _ Hs Hg (or_introl eq_refl) Hx Hlf) as Hbt.
    all: assert (Hbinds : c_binds c = B) by (rewrite <- HB; eapply leaf_binds; [exact Hbt| |exact Hst]; destruct (fed_goes _ _ _ _ Hg) as [_ Hfd]; apply Forall_inv in Hfd; now apply fed_store_fed).
    all: assert (Hnb : blocked (p_done p) t = false) by (unfold blocked; now rewrite Hd0).
    all: assert (Hgo : goes E fa (fst (run_next E t (ks ++ rest) p o c)) (snd (run_next E t (ks ++ rest) p o c))) by (eapply re_step; [exact Hg|]; eapply es_run; [exact Hnb|exact Hst|apply surjective_pairing]).
    all: assert (Hnext : (forall f, o <> OTerminate f) -> exists q, goes E fa (ks ++ rest) q /\ c_binds (p_ctx q) = B /\ c_log (p_ctx q) = c_log c /\ process E (ks ++ rest) q = (b, p')) by
      (intros Hnt; destruct o as [|tok t'|l| |f]; [| | | |now destruct (Hnt f)]; cbn [run_next fst snd] in Hgo; eexists; (split; [exact Hgo|]); (split; [|split; [|exact Hp]]);
       try exact Hbinds; try reflexivity; try apply def_insert_facts; unfold def_insert; cbn; destruct (nget tok (p_def p)); exact Hbinds).
    all: assert (Hact' : forall j x, nth_error rs j = Some x -> has_action E cfg s (reply_id a (S i + j)) x) by (intros j x Hj; rewrite Nat.add_succ_comm; now apply (Hact (S j))).
    (* an action that goes on *)
    all: try (assert (Hw : went_on t (p_ctx p) o c) by (first [eapply skip_step; eassumption|eapply lost_step; eassumption|eapply pass_step; eassumption]);
      destruct Hw as [Hnt (evs1 & W1 & W2 & W3)]; destruct (Hnext Hnt) as (q & Q1 & Q2 & Q3 & Q4);
      assert (Q5 : c_log (p_ctx q) = (evs1 ++ EvEval (t_id t) :: more) ++ base) by (rewrite Q3, W1, Hbase, <- app_assoc; reflexivity);
      destruct (IH ks rest q b p' _ Hids Hdeps' Hact' Q1 Q2 Q4 Q5) as (h & I1 & I2 & I3);
      exists (h ++ evs1 ++ [EvEval (reply_id a i)]); rewrite I1, Q3, W1, <- !app_assoc, Hid; split; [reflexivity|]; split;
      [cbn [length]; replace (i + S (length rs)) with (S i + length rs) by lia; apply carried_on; [lia| |exact W2|exact W3|exact I2]; apply verdict_bound in Hvd; destruct r as [[j e]|]; [lia|exact Logic.I]|];
      intros j x Hj Hr; destruct j as [|j];
      [injection Hj as <-; rewrite Nat.add_0_r; exists (h ++ ghost t o), evs, more; rewrite <- Hid, <- Hbase; split; [|exact Hwr]; rewrite <- app_assoc, <- Hev, W1; reflexivity|];
      destruct (I3 j x Hj) as (after & evs2 & before & J1 & J2); [destruct r as [[k e]|]; [lia|exact Logic.I]|];
      rewrite <- Nat.add_succ_comm; exists after, evs2, before; split; [|exact J2]; rewrite <- J1, I1, Q3, W1, Hid; reflexivity).
    - (* a denial *)
      destruct (deny_step E cfg fa s n v t (ks ++ rest) p o c Hs Hn Hg Hv Hst px g sq d ty fs Hf Hx Hb Hd) as (st & hd & tr & body & ok & D1 & D2 & D3).
      assert (Hwn : forall h, written E a n v i (mkT px true g sq (OpDeny d) :: rs) (Some (i, Denied fs)) base h) by (intros h j x _ Hj; exfalso; lia).
      assert (Hcr : forall sent rest', (if ok then sent = [EvTerminate (reply_id a i); EvReply st (hd ++ tr) body true; EvMetric MDenied] /\ evaluated rest' = [] else sent = [EvReply st (hd ++ tr) body false; EvMetric MDenied]) ->
        carried cfg a i (i + length (mkT px true g sq (OpDeny d) :: rs)) (Some (i, Denied fs)) (rest' ++ sent ++ [EvEval (reply_id a i)])).
      { intros sent rest' H. exists rest', sent, []. split; [reflexivity|]. split; [apply silent_nil|]. split; [now rewrite Nat.sub_diag|]. exists st, hd, tr, body, ok. auto. }
      destruct ok.
      + destruct D3 as [(f & -> & F1 & F2) D3]. injection Hp as <- <-. cbn [p_ctx p_with_ctx]. rewrite drop_log.
        destruct (terminal_sum E f c F1) as (fe & T1 & _ & _ & _ & _ & _ & T2). rewrite T1, (T2 F2), D3, Hid.
        exists ([] ++ [EvTerminate (reply_id a i); EvReply st (hd ++ tr) body true; EvMetric MDenied] ++ [EvEval (reply_id a i)]). split; [reflexivity|]. split; [apply Hcr; split; reflexivity|apply Hwn].
      + destruct D3 as [-> D3]. destruct (Hnext) as (q & Q1 & Q2 & Q3 & Q4); [discriminate|]. apply process_added in Q4 as (new & N1 & _).
        exists ((new ++ [EvFailed (reply_id a i)]) ++ [EvReply st (hd ++ tr) body false; EvMetric MDenied] ++ [EvEval (reply_id a i)]).
        split; [rewrite N1, Q3, D3, Hid, <- !app_assoc; reflexivity|]. split; [apply Hcr; reflexivity|apply Hwn].
    - (* a failure *)
      destruct (fail_step E cfg fa s n v t (ks ++ rest) p o c Hs Hn Hg Hv Hst px g sq m Hx Hb) as (f & -> & F1 & F2 & F3 & F4).
      destruct (default_sent t (ks ++ rest) p _ c f Hg Hst F3 F1 F2) as (tr & ok & T1 & T2). injection Hp as <- <-. cbn [p_ctx p_with_ctx]. rewrite drop_log, T2, F4, Hid.
      exists ([EvReply 500 tr (Some ise_body) ok; EvMetric MDenied; EvTerminate (reply_id a i); EvMetric MErrors] ++ [EvEval (reply_id a i)]). split; [reflexivity|]. split.
      + exists [], [EvReply 500 tr (Some ise_body) ok; EvMetric MDenied; EvTerminate (reply_id a i); EvMetric MErrors], []. split; [reflexivity|]. split; [apply silent_nil|]. split; [now rewrite Nat.sub_diag|].
        split; [reflexivity|]. now exists tr, ok.
      + intros j x _ Hj. exfalso. lia.
  Qed.
End Replies.
Lemma dotted_suffix a z y : a ++ dot :: nat_text y = z \/ (exists r, a ++ dot :: nat_text y = z ++ dot :: r) -> length a < length z -> below a z -> z = a ++ dot :: nat_text y.
Proof.
  intros H Hl [->|(r & ->)]; [lia|]. destruct H as [<-|(r' & H)]; [reflexivity|]. rewrite <- app_assoc in H. apply app_inv_head in H. cbn [app] in H. injection H as H. exfalso.
  apply (nat_text_nodot y). rewrite H. apply in_or_app. right. now left.
Qed.
(** the reply is what its name means in the reply actions *)
Lemma reply_scope E cfg fa s p a n v j x c : serves E cfg fa s -> goes E fa [] p -> leaf x -> has_action E cfg s (reply_id a j) x ->
  c_binds c = bind_insert a n v (c_binds (p_ctx p)) -> tget n (scope_vars (reply_id a j) c) = Some v.
Proof.
  intros Hs Hg Hl Hx Hc. unfold scope_vars. rewrite Hc. apply insert_scope; [exact (reach_ordered _ _ _ _ Hg)|apply is_ancestor_below; right; now exists (nat_text j)|].
  intros z bs Hi Hne Hz. apply is_ancestor_below in Hz. destruct bs as [|[n1 v1] bs]; [easy|].
  destruct (proj1 (bound_replies _ _ _ _ _ _ Hs Hg z n1 v1)) as (y & pr & tm & g & sq & service & msg & r & rs & svs & k & sv & Hy & -> & _); [exists ((n1, v1) :: bs); split; [exact Hi|now left]|].
  assert (Ha : below a (reply_id a j)) by (right; now exists (nat_text j)).
  destruct (Nat.le_gt_cases (length z) (length a)) as [Hle|Hgt].
  - destruct (below_both _ _ _ Hz Ha Hle) as [->|(w & ->)]; [|apply leb_prefix]. rewrite <- (app_nil_r z) at 2. apply leb_prefix.
  - exfalso. assert (Hb : below a z) by (eapply below_both; [exact Ha|exact Hz|lia]). assert (z = reply_id a j) as -> by (apply dotted_suffix; [destruct Hz as [H|(w & H)]; [now left|right; now exists w]|exact Hgt|exact Hb]).
    destruct Hx as (svs1 & S1 & C1), Hy as (svs2 & S2 & C2). assert (svs2 = svs1) as -> by congruence. pose proof (configured_unique _ _ _ _ _ _ C1 C2) as ->. exact Hl.
Qed.

(** * C115 *)
(** the response [sz] is readable and decodes to [v] *)
Definition replied (E : env) (sc : svc_cfg) (sz : N) (h : log) (v : value) : Prop :=
  exists k sv b, inst_of sc = Some (IDyn k sv) /\ h_grpcresp E h sz = Some b /\ o_decode E h sv b = Some v.
(** The reply to a call leads to the verdict of its reply actions, at once: the actions that are
    not for this reply, or whose conditions or denials cannot be evaluated, are passed over; the others
    write what they are for; the first that denies the request or gives up on it does so, and nothing is
    evaluated after it. *)
Theorem C115_replies_lead_to_their_verdict : forall E cfg fa s l a pr tm g sq var name m rs sc k sz v r,
  fresh_tokens E -> try_from E cfg = Some fa -> serves E cfg fa s -> later l -> cel_constants E ->
  has_action E cfg s a (mkT pr tm g sq (OpGrpc var name m rs)) -> tget name (pc_services cfg) = Some sc -> own_name E cfg s var ->
  ~ terminated (f_log (run E fa l)) -> call_open (f_log (run E fa l)) k a ->
  let now := EvEval a :: EvHandle k a :: EvGrpcResp k 0 sz :: f_log (run E fa l) in
  replied E sc sz now v -> verdict E var v 0 rs r ->
  exists after, f_log (run E fa (l ++ [InGrpc k 0 sz])) = after ++ EvDone a :: now /\ carried cfg a 0 (length rs) r after /\
    written E a var v 0 rs r (EvDone a :: now) (f_log (run E fa (l ++ [InGrpc k 0 sz]))).
Proof.
  intros E cfg fa s l a pr tm g sq var name m rs sc k sz v r F Hf Hs Hl HC Hha Hsc Hown Ht Ho now (kd & sv & b & Hi & Hb & Hv) Hvd. pose proof Hha as (svs & Hsv & Hc).
  destruct (open_pipe E fa l k F Hl) as (p & Hp); [left; eauto|]. destruct (reach E fa l p Hl Hp) as (p0 & Hbd & HB & _ & Hd).
  destruct (open_def _ _ _ _ _ _ F HB Ho) as (t & Hn & Hid). cbn [f_take p_with_ctx p_def] in Hn.
  (* the deferred task *)
  assert (Hx : exists id sv var rs g, core t = TPending id sv var rs g /\ Forall wf_q rs).
  { pose proof (Forall_nget _ _ _ _ (w_def _ _ (t_w _ _ _ _ (b_t _ _ _ _ _ HB))) Hn) as Hw. apply wf_d_core in Hw.
    destruct (core t) eqn:Hct; try easy; [do 5 eexists; split; [reflexivity|exact Hw]|]. exfalso.
    destruct Ho as (after & cl & before & Hlg & Hun). refine (t_u _ _ _ _ (b_t _ _ _ _ _ HB) F Ht _ a k _).
    - apply Exists_exists. exists t. split; [|exact Hw]. apply nget_In in Hn. now apply (in_map snd) in Hn.
    - exists after, cl, before. split; [exact Hlg|]. apply Forall_forall. intros e He Ha. destruct e; simpl in Ha; try easy. subst. eapply Hun; eauto. }
  destruct Hx as (id & sv' & var' & rs' & g' & Hct & Hwf).
  assert (id = a) by (rewrite <- Hid, <- (core_id t), Hct; reflexivity). subst id.
  assert (Hin : In t (items [] (f_take (run E fa l) p))).
  { unfold items, dts. apply in_or_app. right. apply in_or_app. right. apply nget_In in Hn. now apply (in_map snd) in Hn. }
  (* what it is configured as *)
  assert (Hnd : In (NCall a sv' var' g' (map t_id rs')) (nodess (p_queue p0))).
  { apply (b_nodes _ _ _ _ _ HB). apply in_flat_map. exists t. split; [exact Hin|]. rewrite <- nodes_core, Hct. now left. }
  assert (Hk : sv' = sv /\ var' = var /\ map t_id rs' = reply_ids a rs).
  { destruct (serves_nodes _ _ _ _ _ Hs Hbd _ Hnd) as [(svs' & a' & x & Hsv' & Hc' & Hds)|Hds].
    - rewrite Hsv in Hsv'. injection Hsv' as <-. destruct x as [pr' tm' g'' sq' op]. destruct Hds as (pred & _ & Hds). destruct op; try contradiction.
      destruct Hds as (<- & Hva & _ & (k' & Hk') & Hkids). pose proof (configured_unique _ _ _ _ _ _ Hc Hc') as Hu. injection Hu as <- <- <- <- <- <- <- <-.
      split; [|split; [exact Hva|exact Hkids]]. destruct (svs_service cfg svs name Hsv) as [S1 S2]. rewrite Hsc in S1. rewrite Hi in S1. congruence.
    - destruct Hds as (-> & _). now apply configured_not_dev in Hc. }
  destruct Hk as (-> & -> & Hids).
  (* its reply tasks wait for nothing *)
  assert (Hdeps : Forall (fun t => t_deps t = []) rs').
  { destruct (build_shape _ _ _ _ Hbd) as (bb & HBt). destruct (bt_sel _ _ _ _ _ HBt) as (c & Hsel).
    pose proof (Z_run_filter E cfg fa p0 bb c l Hf Hbd Hsel Hl) as HZ. unfold holds in HZ. rewrite Hp in HZ. destruct HZ as [[HZ _] _].
    pose proof (z_flat _ _ _ _ _ _ HZ) as Hfl. rewrite Forall_forall in Hfl. specialize (Hfl _ Hin). unfold flat in Hfl. rewrite Hct in Hfl.
    apply Forall_forall. intros r0 Hr. rewrite Forall_forall in Hwf. apply (flat_sub r0 (Hwf r0 Hr)). intros x d Hxd. apply (Hfl x d). apply in_dls. now exists r0. }
  assert (Hterm : p_term p = false).
  { destruct (p_term p) eqn:Hpt; [|reflexivity]. exfalso. apply Ht. apply (t_over _ _ _ _ (b_t _ _ _ _ _ HB)). exact Hpt. }
  pose proof (run_reach E fa l p Hl Hp) as Hgo. set (pt := f_take (run E fa l) p) in *.
  assert (Hset : settled pt) by (intros H; unfold pt in H; cbn in H; congruence).
  (* the reply actions *)
  assert (Hacts : forall j x, nth_error rs j = Some x -> has_action E cfg s (reply_id a (0 + j)) x).
  { intros j x Hj. exists svs. split; [exact Hsv|]. destruct Hc as (i0 & c1 & t1 & C1 & C2 & C3). exists i0, c1, t1. split; [exact C1|]. split; [exact C2|].
    apply (within_trans _ _ _ _ _ _ C3). eapply wi_reply; [exact Hj|apply wi_self]. }
  (* the callback *)
  rewrite run_snoc. destruct (callback E fa _ (InGrpc k 0 sz) p Hd Hp) as (_ & _ & _ & H); [discriminate|]. rewrite H. clear H.
  set (q := advance E (InGrpc k 0 sz) (seen (InGrpc k 0 sz) (run E fa l) p)).
  assert (K : exists new, c_log (p_ctx q) = new ++ EvDone a :: now /\ carried cfg a 0 (length rs) r new /\ written E a var v 0 rs r (EvDone a :: now) (c_log (p_ctx q))).
  2:{ destruct K as (new & K1 & K2 & K3). exists (answer (InGrpc k 0 sz) (run E fa l) q ++ new). split; [now rewrite K1, <- app_assoc|]. split; [apply carried_more; [apply evaluated_none, answer_silent|exact K2]|].
      now apply written_more. }
  unfold q. cbn [advance]. unfold digest_pipe. destruct (seen_def (InGrpc k 0 sz) (run E fa l) p) as [S1 S2]. rewrite S1, Hn, S2. cbn [p_ctx].
  change (emit (EvHandle k (t_id t)) (set_grpc 0 sz (p_ctx (seen (InGrpc k 0 sz) (run E fa l) p)))) with (emit (EvHandle k (t_id t)) (set_grpc 0 sz (emit (EvGrpcResp k 0 sz) (p_ctx pt)))).
  set (c0 := emit (EvHandle k (t_id t)) (set_grpc 0 sz (emit (EvGrpcResp k 0 sz) (p_ctx pt)))).
  assert (Hc0 : c_log c0 = EvHandle k a :: EvGrpcResp k 0 sz :: f_log (run E fa l) /\ c_grpc c0 = Some (0%N, sz) /\ c_binds c0 = c_binds (p_ctx pt)).
  { unfold c0. rewrite Hid. pose proof (w_grpc _ _ (t_w _ _ _ _ (b_t _ _ _ _ _ HB))) as Hg. fold pt in Hg. unfold set_grpc. cbn [emit with_log c_grpc]. rewrite Hg. split; [|split]; reflexivity. }
  destruct Hc0 as (L0 & G0 & B0). assert (Hst0 : c0 = emit (EvHandle k (t_id t)) (set_grpc 0 sz (emit (EvGrpcResp k 0 sz) (p_ctx pt)))) by reflexivity. clearbody c0.
  assert (Hap : exists c1, c_log c1 = now /\ (rs' <> [] -> c_binds c1 = bind_insert a var v (c_binds (p_ctx pt))) /\ apply E (core t) (emit (EvEval (t_id t)) c0) = (match rs' with [] => ODone | _ => ORequeued rs' end, c1)).
  { rewrite Hct, Hid. cbn [apply]. unfold apply_pending, process_response, take_grpc. cbn [emit with_log c_grpc]. rewrite G0. cbn [N.eqb negb].
    destruct rs' as [|r0 rs']; [eexists; split; [|split; [easy|reflexivity]]; destruct g'; cbn; now rewrite L0|].
    cbn [with_grpc emit with_log c_log]. rewrite L0. fold now. rewrite Hb, Hv. eexists. split; [|split; [|reflexivity]]; [destruct g'; unfold add_binding; cbn; now rewrite L0|].
    intros _. destruct g'; unfold add_binding; cbn; now rewrite B0. }
  destruct Hap as (c1 & L1 & B1 & Hap). destruct (wrapped_success E t _ _ _ Hap) as (o' & H1 & H2); [now destruct rs'|].
  destruct (step E t c0) as [o c] eqn:Hst. pose proof Hst as Hst1. rewrite Hst0 in Hst1. pose proof (es_handle E k 0 sz t pt o c Hset Hn Hst1) as Hhd. apply (re_step _ _ _ _ _ _ Hgo) in Hhd.
  assert (Hstep : o = o' /\ c_binds c = c_binds c1 /\ c_log c = ghost t o' ++ c_log c1).
  { unfold step in Hst. rewrite H1 in Hst. injection Hst as <- <-. split; [reflexivity|]. destruct o'; split; reflexivity. }
  destruct Hstep as (-> & Hbc & Hlc). destruct rs' as [|r0 rs'].
  - subst o'. assert (rs = []) as -> by (destruct rs; [reflexivity|discriminate Hids]). assert (r = None) as -> by (inversion Hvd; reflexivity). match goal with |- context [eval_pipe E ?pp] => destruct (eval_added E pp) as (new & Hnew & _) end.
    exists new. rewrite Hnew. cbn [p_with_done p_with_ctx p_ctx]. rewrite Hlc, L1. cbn [ghost app]. rewrite Hid. split; [reflexivity|]. split; [exists new, []; rewrite app_nil_r; split; [reflexivity|]; split; [apply silent_nil|reflexivity]|].
    intros j x Hj. destruct j; discriminate.
  - destruct H2 as (l' & -> & I1 & I2). cbn [handle_next p_with_ctx p_ctx p_queue p_def p_done p_td p_term] in Hhd |- *. cbn [ghost app] in Hlc.
    match type of Hhd with goes _ _ _ ?pp => set (ph := pp) in * end. change (p_queue pt) with (p_queue p) in ph.
    assert (Hsh : settled ph) by (intros H; unfold ph, pt in H; cbn in H; congruence). pose proof (re_step _ _ _ _ _ _ Hhd (es_start E ph Hsh)) as Hgs.
    change (p_td (seen (InGrpc k 0 sz) (run E fa l) p)) with (p_td pt). change (p_term (seen (InGrpc k 0 sz) (run E fa l) p)) with (p_term pt). change (p_done (seen (InGrpc k 0 sz) (run E fa l) p)) with (p_done pt).
    change (ndel k (p_def p)) with (ndel k (p_def pt)). fold ph. unfold eval_pipe. destruct (process E (p_queue ph) (p_with_queue ph [])) as [bb p1] eqn:Hpr.
    change (p_queue ph) with (l' ++ p_queue p) in Hgs, Hpr.
    destruct (replies_run E cfg fa s var v a (bind_insert a var v (c_binds (p_ctx pt))) Hf Hs Hown HC) with (base := EvDone a :: now) (i := 0) (rs := rs) (r := r) (ks := l') (rest := p_queue p) (p := p_with_queue ph []) (b := bb) (p' := p1) (more := @nil ev) as (h & R1 & R2 & R3).
    + intros j x c2 Hlf Hx2 Hb2. exact (reply_scope E cfg fa s pt a var v j x c2 Hs Hgo Hlf Hx2 Hb2).
    + exact Hvd.
    + rewrite I1, Hids. reflexivity.
    + exact (map_t_deps_nil _ _ I2 Hdeps).
    + exact Hacts.
    + exact Hgs.
    + cbn. rewrite Hbc. apply B1. discriminate.
    + exact Hpr.
    + cbn. rewrite Hlc, L1, Hid. reflexivity.
    + assert (R0 : c_log (p_ctx (p_with_queue ph [])) = EvDone a :: now) by (cbn; rewrite Hlc, L1, Hid; reflexivity). rewrite R0 in R1. cbn [Nat.add] in R2.
      assert (KK : exists new, c_log (p_ctx (execute_teardown E p1)) = new ++ EvDone a :: now /\ carried cfg a 0 (length rs) r new /\ written E a var v 0 rs r (EvDone a :: now) (c_log (p_ctx (execute_teardown E p1)))).
      { destruct (teardown_evaluates E p1) as (n2 & M1 & M2). exists (n2 ++ h). rewrite M1. split; [now rewrite R1, app_assoc|]. split; [now apply carried_more|now apply written_more]. }
      assert (K1 : exists new, c_log (p_ctx p1) = new ++ EvDone a :: now /\ carried cfg a 0 (length rs) r new /\ written E a var v 0 rs r (EvDone a :: now) (c_log (p_ctx p1))) by (exists h; auto).
      destruct bb; [exact KK|]. destruct (p_queue p1); [destruct (p_def p1); [destruct (p_td p1); [|exact KK]|]|]; exact K1.
Qed.
Print Assumptions C115_replies_lead_to_their_verdict.

(** * Examples *)
Fixpoint paths_of (t : taction) : list text :=
  match t with mkT _ _ _ _ (OpStore p _ _) => [p] | mkT _ _ _ _ (OpGrpc _ _ _ rs) => flat_map paths_of rs | _ => [] end.
Lemma within_paths id t a x : within id t a x -> incl (paths_of x) (paths_of t).
Proof.
  induction 1 as [id t|id p tm g sq var service msg rs i r a x Hn _ IH]; [apply incl_refl|]. intros y Hy. cbn [paths_of]. apply in_flat_map. exists r. split; [eapply nth_error_In; eauto|now apply IH].
Qed.
Lemma own_name_check E cfg s n svs : cfg_svs cfg = Some svs -> existsb (text_eqb n) taken = false -> is_host_root n = false ->
  forallb (fun c => match meaning svs (cfg_rsrc E cfg) c with Some t => forallb (fun p => negb (is_ancestor n p)) (paths_of t) | None => true end) (as_actions s) = true -> own_name E cfg s n.
Proof.
  intros Hsv H1 H2 H3. split; [|split; [exact H2|]].
  - intros H. assert (existsb (text_eqb n) taken = true) as Ht by (apply existsb_exists; exists n; split; [exact H|apply text_eqb_refl]). congruence.
  - intros name (b & pr & tm & g & sq & x & export & svs' & Hsv' & i & c & t & C1 & C2 & C3). assert (svs' = svs) as -> by congruence. apply within_paths in C3. specialize (C3 name (or_introl eq_refl)).
    rewrite forallb_forall in H3. specialize (H3 c (nth_error_In _ _ C1)). rewrite C2, forallb_forall in H3. apply H3 in C3. apply negb_true_iff in C3.
    assert (Hn : ~ below n name) by (intros H; apply is_ancestor_below in H; congruence). split; [intros ->; apply Hn; now left|]. intros r ->. apply Hn. right. now exists r.
Qed.
Ltac says := eexists; split; [vm_compute; reflexivity|]; split; [vm_compute; reflexivity|]; intros past vs Hvs; cbn; rewrite ?Hvs; reflexivity.
(** the header action passes, the denial ends it; the last reply action and the queued call are not evaluated *)
Example C115_ex : exists fs,
  fresh_tokens Ed /\ try_from Ed (dcfg ex15) = Some (dfac Ed ex15) /\ serves Ed (dcfg ex15) (dfac Ed ex15) (set_of ex15) /\ later [] /\ cel_constants Ed /\
  has_action Ed (dcfg ex15) (set_of ex15) (tx "0") (mkT (tx "true") false true false (OpGrpc (tx "r") (tx "hard") (tx "msg") [dhdr "true" false; ddeny "true" true false; dhdr "true" false])) /\
  tget (tx "hard") (pc_services (dcfg ex15)) = Some (dsvc true) /\ own_name Ed (dcfg ex15) (set_of ex15) (tx "r") /\
  ~ terminated (dlog Ed ex15 []) /\ call_open (dlog Ed ex15 []) 0 (tx "0") /\
  replied Ed (dsvc true) 0 (EvEval (tx "0") :: EvHandle 0 (tx "0") :: EvGrpcResp 0 0 0 :: dlog Ed ex15 []) VNull /\
  verdict Ed (tx "r") VNull 0 [dhdr "true" false; ddeny "true" true false; dhdr "true" false] (Some (1, Denied fs)) /\
  In (EvReply 403 [] (Some (tx "no")) true) (dlog Ed ex15 [InGrpc 0 0 0]) /\ In (EvSetMap MReq [(tx "x-a", tx "1")] true) (dlog Ed ex15 [InGrpc 0 0 0]).
Proof.
  eexists. split; [exact demo_fresh|]. split; [vm_compute; reflexivity|]. split; [serve|]. split; [now intros []|]. split; [apply demo_constants; reflexivity|]. split; [acts 0|].
  split; [vm_compute; reflexivity|]. split; [eapply own_name_check; vm_compute; reflexivity|]. split; [apply no_end_spec; vm_compute; reflexivity|]. split; [apply call_open_spec; vm_compute; tauto|].
  split; [do 3 eexists; split; [vm_compute; reflexivity|split; vm_compute; reflexivity]|]. split; [|split; find].
  apply vd_pass; [exact Logic.I|]. eapply vd_deny; says.
Qed.
