(** The value under a path is the one the last store action for it stored. *)
From Coq Require Import String List NArith Bool Lia Arith Ascii.
From Verif Require Import Base Value Headers AttrPath Ctx CelProps CelEval Sse Body ValueBytes Tasks Exec Config Legacy Blueprint Factory Filter
  P_Frame P_Apply P_Exec P_Run P_Inv P_Ids P_Plan P_Order P_Term P_Bar P_Cfg P_Head P_Fed P_Told P_Eff P_Rid P_Scope.
Import ListNotations.
Open Scope list_scope.

(** [e] ends the processing of the action [a] *)
Definition closes (a : text) (e : ev) : Prop := e = EvDone a \/ e = EvTerminate a.
Definition starts (e : ev) : Prop := match e with EvEval _ => True | _ => False end.

(** * A store action that completes *)
Definition over_with (o : outcome) : Prop := o = ODone \/ exists f, o = OTerminate f.
Definition put (E : env) (K : text -> ctx -> Prop) (id : text) (pred ex : expr) (path : text) (l : log) (c c' : ctx) : Prop :=
  (pval E K id pred false l /\ c_vals c' = c_vals c) \/
  (pval E K id pred true l /\ exists v, eval_to E K id [pred] ex v l /\ c_vals c' = tset path v (c_vals c)).
Lemma store_value_put E (K : text -> ctx -> Prop) self id p x path ex tm c0 c o c' : K id c0 -> near E c0 c ->
  store_value E self id p x path ex tm c = (o, c') -> over_with o -> put E K id p x path (c_log c) c c'.
Proof.
  intros HK HN. unfold store_value. destruct (test_in E p (scope_vars id c) c) as [[r vs] c1] eqn:H1. pose proof (test_in_ext _ _ _ _ _ _ _ H1) as X1.
  pose proof (ext_kept _ _ X1) as [K1 K2].
  destruct r as [|[]|]; try (intros [= <- <-] [[=]|(? & [=])]; fail).
  2:{ intros [= <- <-] _. left. split; [now destruct (first_val _ _ _ _ _ _ _ _ _ HK HN H1)|exact K2]. }
  destruct (eval_in E x vs c1) as [[r2 vs2] c2] eqn:H2. pose proof (eval_in_ext _ _ _ _ _ _ _ H2) as X2. pose proof (ext_kept _ _ X2) as [K3 K4].
  assert (KV : c_vals c2 = c_vals c) by congruence.
  destruct r2 as [|v|]; try (intros [= <- <-] [[=]|(? & [=])]; fail).
  set (y := if ex then _ else _). assert (Hy : c_vals (snd y) = c_vals c).
  { unfold y. destruct ex; [|exact KV]. destruct (value_bytes v); [|exact KV]. unfold set_attribute. destruct (h_setprop E _ _ _); exact KV. }
  destruct y as [ok c3]. cbn [snd] in Hy. destruct ok; [|intros [= <- <-] [[=]|(? & [=])]].
  intros [= <- <-] _. right. destruct (first_val _ _ _ _ _ _ _ _ _ HK HN H1) as [P1 Hin]. destruct (eval_val _ _ _ _ _ _ _ _ _ _ _ HK Hin H2) as [P2 _]. rewrite (ext_log _ _ X1) in P2.
  split; [exact P1|]. exists v. split; [exact P2|]. cbn. now rewrite Hy.
Qed.
Lemma store_put E (K : text -> ctx -> Prop) id p x path ex tm bs c o c' : K id c -> bs_ok E (c_log c) bs ->
  apply E (TStore id p x path ex tm bs) c = (o, c') -> over_with o -> put E K id p x path (c_log c) c c'.
Proof.
  intros HK Hsf. cbn [apply]. unfold apply_store.
  assert (KK : forall src q c1 o c', near E c c1 -> kept c c1 -> (bodies_ok E c1 -> bp_ok E src (c_log c1) q) ->
    match feed_parser E src q c1 with
    | RPending => (ORequeued [TStore id p x path ex tm (BSActive src q)], c1)
    | RErr => (OFailed, c1)
    | RAvail (p', c') => store_value E (TStore id p x path ex tm (BSActive src p')) id p x path ex tm c'
    end = (o, c') -> over_with o -> put E K id p x path (c_log c) c c').
  { intros src q c1 o0 c0 Hnr [Hk1 Hk2] Hq. pose proof (near_log _ _ _ Hnr) as Hl. destruct (feed_parser E src q c1) as [|[q' c2]|] eqn:Hf; try (intros [= <- <-] [[=]|(? & [=])]; fail).
    pose proof (near_feed _ _ _ _ _ _ Hq Hf) as Hnf. apply feed_parser_frame in Hf as (b & ->). intros H Ho. apply (store_value_put E K _ id p x path ex tm c _ _ _ HK) in H; [|eapply near_trans; [exact Hnr|exact Hnf]|exact Ho].
    assert (c_log (src_set src b c1) = c_log c1 /\ c_vals (src_set src b c1) = c_vals c1) as (E1 & E3) by (destruct src; now split).
    unfold put in *. rewrite E1, E3, Hl, Hk2 in H. exact H. }
  destruct bs as [|src fields|src q].
  - now apply (store_value_put E K _ id p x path ex tm c c), near_refl.
  - destruct (create_parser E src fields c) as [r c1] eqn:Hcp.
    assert (near E c c1 /\ kept c c1) as [Hnr Hk].
    { revert Hcp. unfold create_parser. destruct src; [intros [= _ <-]; split; [apply near_refl|apply kept_refl]|]. destruct (read_headers E p_resp_headers c) as [r1 c2] eqn:Hr.
      pose proof (extf_near _ _ _ (read_headers_extf _ _ _ _ _ Hr)) as Hn. apply read_headers_ext in Hr. cbv zeta. destruct r1; intros [= _ <-]; (split; [exact Hn|]); now apply ext_kept. }
    destruct r as [|q|]; try (intros [= <- <-] [[=]|(? & [=])]; fail). apply KK; auto. intros [Hd _]. now apply create_parser_ok in Hcp as [_ Hcp].
  - apply KK; [apply near_refl|apply kept_refl|intros _; exact Hsf].
Qed.

Lemma core_flat t : match core t with TFailureMode _ _ | TTracing _ => False | _ => True end.
Proof. induction t; simpl; auto. Qed.

(** * Splitting logs *)
Lemma split_at {A} (e : A) : forall new after rest l, after ++ e :: rest = new ++ l ->
  (exists a', after = new ++ a' /\ l = a' ++ e :: rest) \/ (exists n2, new = after ++ e :: n2 /\ rest = n2 ++ l).
Proof.
  induction new as [|x new IH]; intros after rest l H; [left; now exists after|]. destruct after as [|y after]; cbn in H; injection H as -> H.
  - right. exists new. now split.
  - destruct (IH _ _ _ H) as [(a' & -> & ->)|(n2 & -> & ->)]; [left; now exists a'|right; now exists n2].
Qed.
Lemma first_start id id' : forall mid past evs l, Forall (fun e => ~ starts e) mid -> Forall (fun e => ~ starts e) evs ->
  mid ++ EvEval id :: past = evs ++ EvEval id' :: l -> id = id' /\ past = l.
Proof.
  induction mid as [|x mid IH]; intros past [|y evs] l Hm He H; cbn in H.
  - now injection H.
  - injection H as <- _. inversion He as [|? ? Hn]. now destruct Hn.
  - injection H as -> _. inversion Hm as [|? ? Hn]. now destruct Hn.
  - injection H as -> H. inversion Hm; inversion He; subst. eauto.
Qed.

(** [now] is a history at whose end the action [a] ends, after an evaluation that began when [past] had happened *)
Definition ended_at (a : text) (past now : log) : Prop :=
  exists e mid, now = e :: mid ++ EvEval a :: past /\ closes a e /\ Forall (fun e => ~ starts e) mid.

(** * The invariant *)
Definition ids_ok (N0 : list node) : Prop := forall b pb xb path eb tb, In (NStore b pb xb path eb tb) N0 ->
  (forall nd, In nd N0 -> n_id nd = b -> nd = NStore b pb xb path eb tb) /\ ~ callid N0 b /\ b <> tu.
Section Last.
Variables (E : env) (fa : factory) (N0 : list node).
Let K := at_work E fa.
Definition rival (path : text) (e : ev) : Prop := exists b pb xb eb tb, In (NStore b pb xb path eb tb) N0 /\ closes b e.
(** the store actions of [path] that ended after the first [n] events had a false condition *)
Definition passed (path : text) (n : nat) (l : log) : Prop := forall a1 now b past pb xb eb tb,
  l = a1 ++ now -> n < length now -> In (NStore b pb xb path eb tb) N0 -> ended_at b past now -> pval E K b pb false (EvEval b :: past).
Definition newest_in (path : text) (v : value) (l : log) : Prop := exists after now id past pred ex export tm,
  l = after ++ now /\ In (NStore id pred ex path export tm) N0 /\ ended_at id past now /\
  pval E K id pred true (EvEval id :: past) /\ eval_to E K id [pred] ex v (EvEval id :: past) /\ passed path (length now) l.
Definition latest (l : log) (vals : list (text * value)) : Prop := NoDup (map fst vals) /\
  forall path, match tget path vals with Some v => newest_in path v l | None => passed path 0 l end.

Lemma passed_app path n new l : (forall a1 now b past pb xb eb tb, new = a1 ++ now -> now <> [] -> In (NStore b pb xb path eb tb) N0 -> ended_at b past (now ++ l) -> pval E K b pb false (EvEval b :: past)) ->
  passed path n l -> passed path n (new ++ l).
Proof.
  intros Hn Hl a1 now b past pb xb eb tb H Hlen Hi He. pose proof He as (e & mid & -> & _). symmetry in H.
  destruct (split_at _ _ _ _ _ H) as [(a' & _ & ->)|(n2 & -> & Hr)]; [eapply (Hl a'); eauto|].
  rewrite Hr in He. apply (Hn a1 (e :: n2) b past pb xb eb tb eq_refl); [discriminate|exact Hi|exact He].
Qed.
Lemma passed_quiet path n new l : Forall (fun e => ~ rival path e) new -> passed path n l -> passed path n (new ++ l).
Proof.
  intros Hq. apply passed_app. intros a1 now b past pb xb eb tb -> Hne Hi (e & mid & H & Hc & _). exfalso.
  destruct now as [|e' now]; [easy|]. injection H as -> _. apply Forall_app in Hq as [_ Hq]. inversion Hq as [|? ? Hx]; subst. apply Hx. now exists b, pb, xb, eb, tb.
Qed.
Lemma newest_app path v new l : (forall a1 now b past pb xb eb tb, new = a1 ++ now -> now <> [] -> In (NStore b pb xb path eb tb) N0 -> ended_at b past (now ++ l) -> pval E K b pb false (EvEval b :: past)) ->
  newest_in path v l -> newest_in path v (new ++ l).
Proof.
  intros Hn (after & now & id & past & pred & ex & export & tm & -> & H1 & H2 & H3 & H4 & H5). exists (new ++ after), now, id, past, pred, ex, export, tm.
  split; [now rewrite app_assoc|]. repeat (split; [assumption|]). now apply passed_app.
Qed.
Lemma latest_quiet new l vals : Forall (fun e => forall path, ~ rival path e) new -> latest l vals -> latest (new ++ l) vals.
Proof.
  intros Hq [Hd H]. split; [exact Hd|]. intros path. specialize (H path). assert (Hq' : Forall (fun e => ~ rival path e) new) by (eapply Forall_impl; [|exact Hq]; auto).
  destruct (tget path vals) as [v|]; [|now apply passed_quiet]. apply newest_app; [|exact H].
  intros a1 now b past pb xb eb tb -> Hne Hi (e & mid & He & Hc & _). exfalso.
  destruct now as [|e' now]; [easy|]. injection He as -> _. apply Forall_app in Hq' as [_ Hq']. inversion Hq' as [|? ? Hx]; subst. apply Hx. now exists b, pb, xb, eb, tb.
Qed.
Hypothesis alone : ids_ok N0.

Lemma evs_quiet t c o c' evs : ssum E t c o c' evs -> Forall (fun e => ~ starts e /\ forall a, ~ closes a e) evs.
Proof.
  intros H. pose proof (ss_evs _ _ _ _ _ _ H) as He. assert (K0 : Forall (quiet t) evs -> Forall (fun e => ~ starts e /\ forall a, ~ closes a e) evs).
  { apply Forall_impl. intros e Hq. split; [destruct e; easy|]. intros a [->| ->]; easy. }
  destruct o; try now apply K0. destruct He as (cl & -> & _). constructor; [|constructor]. split; [easy|]. now intros a [|].
Qed.
Lemma final_quiet evs : Forall final_ev evs -> Forall (fun e => ~ starts e /\ forall a, ~ closes a e) evs.
Proof. apply Forall_impl. intros e Hq. split; [destruct e; easy|]. intros a [->| ->]; easy. Qed.
Lemma weaker evs : Forall (fun e => ~ starts e /\ forall a, ~ closes a e) evs -> Forall (fun e => forall path, ~ rival path e) evs.
Proof. apply Forall_impl. intros e [_ H] path (b & pb & xb & eb & tb & _ & Hc). exact (H _ Hc). Qed.
Lemma weaker_s evs : Forall (fun e => ~ starts e /\ forall a, ~ closes a e) evs -> Forall (fun e => ~ starts e) evs.
Proof. apply Forall_impl. now intros e [H _]. Qed.
(** the ghost events of a task that is no store action, and of one that did not end *)
Lemma ghost_rival t o path : (forall pb xb eb tb, ~ In (NStore (t_id t) pb xb path eb tb) N0) \/ ~ over_with o -> Forall (fun e => ~ rival path e) (ghost t o).
Proof.
  intros H. assert (Hx : forall e, closes (t_id t) e -> over_with o -> ~ rival path e).
  { intros e He Ho (b & pb & xb & eb & tb & Hi & Hc). destruct H as [H|H]; [|now apply H]. assert (b = t_id t) as -> by (destruct He as [-> | ->], Hc as [Hc|Hc]; congruence). exact (H _ _ _ _ Hi). }
  destruct o; cbn [ghost]; repeat constructor; try (apply Hx; [now left|now left]); try (apply Hx; [now right|right; eauto]); try (intros (b & pb & xb & eb & tb & _ & [Hc|Hc]); discriminate).
Qed.
Lemma eval_rival id path : ~ rival path (EvEval id).
Proof. intros (b & pb & xb & eb & tb & _ & [Hc|Hc]); discriminate. Qed.

(** one evaluation of a queued task *)
Lemma latest_step t c o c' evs : wf_q t -> plain t -> K (t_id t) (emit (EvEval (t_id t)) c) -> store_fed E (c_log c) t -> incl (nodes t) N0 -> step E t c = (o, c') -> ssum E t c o c' evs ->
  latest (c_log c) (c_vals c) -> latest (c_log c') (c_vals c').
Proof.
  intros Hw Hp HK Hsf Hn Hst Hs HI. pose proof (ss_log _ _ _ _ _ _ Hs) as Hl. pose proof (evs_quiet _ _ _ _ _ Hs) as Hq. apply step_apply in Hst as (c1 & Ha & _ & Kv).
  set (new := ghost t o ++ evs ++ [EvEval (t_id t)]).
  assert (Hl' : c_log c' = new ++ c_log c) by (unfold new; rewrite Hl, <- !app_assoc; reflexivity).
  pose proof (apply_kept E K t _ _ _ HK (store_fed_app E [_] _ _ Hsf) Ha) as Hk.
  assert (Hquiet : forall path, (forall pb xb eb tb, ~ In (NStore (t_id t) pb xb path eb tb) N0) \/ ~ over_with o -> Forall (fun e => ~ rival path e) new).
  { intros path H. apply Forall_app. split; [now apply ghost_rival|]. apply Forall_app. split; [|repeat constructor; apply eval_rival]. eapply Forall_impl; [|apply weaker, Hq]. auto. }
  assert (Hunm : c_vals c' = c_vals c -> (forall path pb xb eb tb, ~ In (NStore (t_id t) pb xb path eb tb) N0) \/ ~ over_with o -> latest (c_log c') (c_vals c')).
  { intros Hv H. rewrite Hl', Hv. apply latest_quiet; [|exact HI]. rewrite Forall_forall. intros e He path. assert (Hx : Forall (fun e => ~ rival path e) new) by (apply Hquiet; destruct H; auto). rewrite Forall_forall in Hx. auto. }
  pose proof (proj2 (wf_q_core t) Hw) as Hw'. rewrite <- nodes_core in Hn. pose proof (core_id t) as Hid. pose proof (core_flat t) as Hf.
  destruct (core t) eqn:Hc; try easy.
  1-4: apply Hunm; [destruct Hk as [_ Hk]; cbn in Hk; congruence|]; left; intros path pb xb eb tb Hi; cbn [t_id] in Hid; rewrite <- Hid in Hi; destruct (alone _ _ _ _ _ _ Hi) as [Hu _]; specialize (Hu _ (Hn _ (or_introl eq_refl)) eq_refl); discriminate.
  2:{ apply Hunm; [destruct Hk as [_ Hk]; cbn in Hk; congruence|]. left. intros path pb xb eb tb Hi. rewrite <- Hid in Hi. destruct (alone _ _ _ _ _ _ Hi) as (_ & _ & Hu). now apply Hu. }
  cbn [t_id] in Hid. assert (Hin : In (NStore (t_id t) pred ex path export terminal) N0) by (rewrite <- Hid; apply Hn; now left). subst id.
  destruct (alone _ _ _ _ _ _ Hin) as (Hu & _ & _).
  assert (Hoth : forall path0 pb xb eb tb, In (NStore (t_id t) pb xb path0 eb tb) N0 -> path0 = path /\ pb = pred) by (intros path0 pb xb eb tb Hi; specialize (Hu _ Hi eq_refl); injection Hu as -> -> -> -> ->; now split).
  destruct Hk as [_ Hk].
  assert (Hdec : over_with o \/ ~ over_with o) by (destruct o; [left; now left|right; intros [[=]|(? & [=])]|right; intros [[=]|(? & [=])]|right; intros [[=]|(? & [=])]|left; right; eauto]).
  destruct Hdec as [Ho|Ho].
  2:{ apply Hunm; [|now right]. destruct Hk as [Hk|(v & _ & _ & _ & Ho')]; [|exfalso; now apply Ho]. cbn in Hk. congruence. }
  destruct (plain_same _ _ _ _ _ Hp (ltac:(rewrite Hc; easy)) Ha) as (o0 & Ha0 & Hkd). rewrite Hc in Ha0.
  assert (Ho0 : over_with o0) by (destruct Ho as [->|(f & ->)]; destruct o0; try discriminate; [now left|right; eauto]).
  assert (Hbs : bs_ok E (c_log (emit (EvEval (t_id t)) c)) bs).
  { pose proof (store_fed_app E [EvEval (t_id t)] _ _ Hsf) as H. unfold store_fed in H. rewrite Hc in H. exact H. }
  pose proof (store_put E K _ _ _ _ _ _ _ _ _ _ HK Hbs Ha0 Ho0) as HP.
  assert (Hg : exists g, ghost t o = [g] /\ closes (t_id t) g) by (destruct Ho as [->|(f & ->)]; cbn [ghost]; eexists; (split; [reflexivity|]); [now left|now right]).
  destruct Hg as (g & Hg & Hcg).
  assert (Hend : ended_at (t_id t) (c_log c) (c_log c')) by (exists g, evs; rewrite Hl, Hg; split; [reflexivity|]; split; [exact Hcg|now apply weaker_s]).
  assert (Hsame : c_vals c' = c_vals c -> pval E K (t_id t) pred false (EvEval (t_id t) :: c_log c) -> latest (c_log c') (c_vals c')).
  { intros Hv Hpf. assert (Hx : forall path0 a1 now b past pb xb eb tb, new = a1 ++ now -> now <> [] -> In (NStore b pb xb path0 eb tb) N0 -> ended_at b past (now ++ c_log c) -> pval E K b pb false (EvEval b :: past)).
    { intros path0 a1 now b past pb xb eb tb Hnew Hne Hi (e & mid & He & Hce & Hm). unfold new in Hnew. rewrite Hg in Hnew. destruct now as [|e' now]; [easy|]. injection He as -> He.
      destruct a1 as [|x a1]; injection Hnew as <- Hnew.
      - assert (b = t_id t) as -> by (destruct Hcg as [-> | ->], Hce as [H|H]; congruence). destruct (Hoth _ _ _ _ _ Hi) as [-> ->].
        rewrite <- Hnew, <- !app_assoc in He. apply eq_sym, first_start in He as [_ ->]; [exact Hpf|exact Hm|now apply weaker_s].
      - exfalso. assert (Hq' : Forall (fun e => ~ rival path0 e) (evs ++ [EvEval (t_id t)])) by (apply Forall_app; split; [eapply Forall_impl; [|apply weaker, Hq]; auto|repeat constructor; apply eval_rival]).
        cbn in Hnew. rewrite Hnew in Hq'. apply Forall_app in Hq' as [_ Hq']. inversion Hq' as [|? ? Hy]; subst. apply Hy. now exists b, pb, xb, eb, tb. }
    rewrite Hl', Hv. destruct HI as [Hd HI]. split; [exact Hd|]. intros path0. specialize (HI path0). destruct (tget path0 (c_vals c)); [apply newest_app|apply passed_app]; auto; apply Hx. }
  destruct HP as [[HP Hkv]|(H1 & v & H2 & H3)].
  - apply Hsame; [|exact HP]. cbn in Hkv. congruence.
  - cbn in H3. destruct HI as [Hd HI]. rewrite Kv, H3. split; [now apply (NoDup_aset text_eqb text_eqb_eq)|]. intros path0. destruct (text_eq_dec path0 path) as [->|Hne].
    + rewrite (aget_aset_same text_eqb text_eqb_eq). exists [], (c_log c'), (t_id t), (c_log c), pred, ex, export, terminal.
      split; [reflexivity|]. repeat (split; [assumption|]). intros a1 now b past pb xb eb tb H Hlen. exfalso. rewrite H, app_length in Hlen. lia.
    + rewrite (aget_aset_other text_eqb text_eqb_eq) by exact Hne. specialize (HI path0).
      assert (Hx : Forall (fun e => ~ rival path0 e) new) by (apply Hquiet; left; intros pb xb eb tb Hi; destruct (Hoth _ _ _ _ _ Hi) as [-> _]; now apply Hne).
      rewrite Hl'. destruct (tget path0 (c_vals c)) as [w|]; [|now apply passed_quiet]. apply newest_app; [|exact HI].
      intros a1 now b past pb xb eb tb -> Hnn Hi (e & mid & He & Hce & _). exfalso.
      destruct now as [|e' now]; [easy|]. injection He as -> _. apply Forall_app in Hx as [_ Hx]. inversion Hx as [|? ? Hy]; subst. apply Hy. now exists b, pb, xb, eb, tb.
Qed.
Lemma latest_finv n tk : finvb E (fun ts p => FG E fa n N0 tk ts p /\ latest (c_log (p_ctx p)) (c_vals (p_ctx p))) (fun _ => True).
Proof.
  pose proof (F_finv E fa n N0 tk) as HF.
  assert (HN : forall e l v, (match e with EvDone _ | EvTerminate _ => False | _ => True end) -> latest l v -> latest (e :: l) v).
  { intros e l v He HI. apply (latest_quiet [e]); [|exact HI]. repeat constructor. intros path (b & pb & xb & eb & tb & _ & [->| ->]); easy. }
  constructor; try (intros; exact Logic.I).
  - intros ts p ts' p' Hs [HG HI]. split; [eapply (fb_step _ _ _ HF); eauto|]. destruct HG as [HG [HB Hpl Hids _ _ _ _]].
    destruct Hs as [p Hset|t ts p Hb|t ts p o c ts' p' Hb Hst Hn|tok st sz p Hset Hn|tok st sz t p o c Hset Hn Hst|p Hq Ht|a rest p Hq Hn Ht].
    + exact HI.
    + exact HI.
    + assert (HW := t_w _ _ _ _ (b_t _ _ _ _ _ HB)). pose proof (w_ts _ _ HW) as Hw. inversion Hw as [|? ? Hwt _]; subst.
      assert (Hnd : incl (nodes t) N0) by (eapply (proj1 (nodess_incl _ _) (b_nodes _ _ _ _ _ HB)); now left).
      inversion Hpl as [|? ? Hpt _]; subst. assert (HK : K (t_id t) (emit (EvEval (t_id t)) (p_ctx p))) by now exists t, ts, p.
      assert (Hsf : store_fed E (c_log (p_ctx p)) t) by (destruct (fed_goes _ _ _ _ HG) as [_ Hf]; inversion Hf; subst; now apply fed_store_fed).
      pose proof Hst as Hss. apply step_sum in Hss as (evs & Hss). pose proof (latest_step _ _ _ _ _ Hwt Hpt HK Hsf Hnd Hst Hss HI) as HL.
      unfold run_next in Hn. destruct o; injection Hn as <- <-; try exact HL.
      * destruct (def_insert_facts tok t0 (p_with_ctx p c)) as (D1 & _). destruct (def_insert_kept tok t0 (p_with_ctx p c)) as [_ D8]. rewrite D1, D8. exact HL.
      * pose proof (ss_final _ _ _ _ _ _ Hss) as Hf. cbn in Hf. destruct (terminal_sum E t0 c Hf) as (evs2 & T1 & T2 & _). destruct (terminal_kept E t0 c Hf) as [_ T4].
        cbn [p_ctx p_with_ctx]. change (c_log (drop_tasks ?l ?x)) with (c_log x). change (c_vals (drop_tasks ?l ?x)) with (c_vals x). rewrite T1, T4.
        apply latest_quiet; [now apply weaker, final_quiet|exact HL].
    + now apply HN.
    + assert (HW := t_w _ _ _ _ (b_t _ _ _ _ _ HB)). assert (Hw : wf_d t) by (eapply Forall_nget; [apply (w_def _ _ HW)|exact Hn]).
      assert (Hin : In t (dts p)) by (eapply In_nget; eauto). rewrite Forall_forall in Hids. pose proof (Hids _ Hin) as Hci.
      assert (Hid : forall path pb xb eb tb, ~ In (NStore (t_id t) pb xb path eb tb) N0) by (intros path pb xb eb tb Hi; destruct (alone _ _ _ _ _ _ Hi) as (_ & Hu & _); now apply Hu).
      pose proof Hst as Hss. apply step_sum in Hss as (evs & Hss). pose proof (ss_log _ _ _ _ _ _ Hss) as Hl. pose proof (evs_quiet _ _ _ _ _ Hss) as Hq. rewrite handle_grpc_log in Hl.
      set (c0 := emit (EvHandle tok (t_id t)) (set_grpc st sz (emit (EvGrpcResp tok st sz) (p_ctx p)))) in *.
      destruct (handle_grpc_binds tok t st sz (p_ctx p)) as [_ Hv0]. fold c0 in Hv0.
      assert (Hv : c_vals c = c_vals (p_ctx p)).
      { apply step_apply in Hst as (c1 & Ha & _ & K2). assert (Hsf : store_fed E (c_log (emit (EvEval (t_id t)) c0)) t) by (pose proof Hw as Hw1; apply wf_d_core in Hw1; unfold store_fed; destruct (core t); try exact Logic.I; destruct Hw1).
        pose proof (apply_kept E (fun _ _ => True) _ _ _ _ Logic.I Hsf Ha) as Hk. apply wf_d_core in Hw. destruct (core t); try easy.
        - destruct Hk as (Hk & _). cbn [emit with_log c_vals] in Hk. congruence.
        - destruct Hk as (_ & Hk). change (c_vals c1 = c_vals c0) in Hk. congruence. }
      assert (HL : latest (c_log c) (c_vals c)).
      { rewrite Hl, Hv. replace (ghost t o ++ _) with ((ghost t o ++ evs ++ [EvEval (t_id t); EvHandle tok (t_id t); EvGrpcResp tok st sz]) ++ c_log (p_ctx p)) by now rewrite <- !app_assoc.
        apply latest_quiet; [|exact HI]. apply Forall_app. split; [rewrite Forall_forall; intros e He path; assert (Hx : Forall (fun e => ~ rival path e) (ghost t o)) by (apply ghost_rival; left; apply Hid); rewrite Forall_forall in Hx; auto|]. apply Forall_app. split; [now apply weaker|]. repeat constructor; intros path (b & pb & xb & eb & tb & _ & [H|H]); discriminate. }
      unfold handle_next. destruct o; cbn [p_with_ctx p_with_done p_ctx p_def p_queue p_done p_td p_term]; try exact HL.
      * destruct (def_insert_facts tok0 t0 (p_with_ctx (mkPipe c (p_queue p) (ndel tok (p_def p)) (p_done p) (p_td p) (p_term p)) c)) as (D1 & _).
        destruct (def_insert_kept tok0 t0 (p_with_ctx (mkPipe c (p_queue p) (ndel tok (p_def p)) (p_done p) (p_td p) (p_term p)) c)) as [_ D8]. rewrite D1, D8. exact HL.
      * apply (latest_quiet [EvDone (t_id t)]); [|exact HL]. repeat constructor. intros path (b & pb & xb & eb & tb & Hi & [H|H]); [|discriminate]. injection H as <-. exact (Hid _ _ _ _ _ Hi).
      * pose proof (ss_final _ _ _ _ _ _ Hss) as Hf. cbn in Hf. destruct (terminal_sum E t0 c Hf) as (evs2 & T1 & T2 & _). destruct (terminal_kept E t0 c Hf) as [_ T4].
        change (c_log (drop_tasks ?l ?x)) with (c_log x). change (c_vals (drop_tasks ?l ?x)) with (c_vals x). rewrite T1, T4.
        apply latest_quiet; [now apply weaker, final_quiet|exact HL].
    + exact HI.
    + destruct (td_sum E a (p_with_td p rest)) as (evs & tok & T1 & T2 & _). pose proof (td_kept E a (p_with_td p rest)) as [_ Hk]. cbn [p_with_td p_ctx] in *. rewrite T1, Hk.
      assert (HL : latest (EvTeardown :: c_log (p_ctx p)) (c_vals (p_ctx p))) by now apply HN.
      destruct T2 as [[-> _]|(cl & -> & _)]; [exact HL|now apply HN].
  - intros p e He [HG HI]. split; [now apply (fb_neutral _ _ _ HF)|]. apply HN; [destruct e; easy|exact HI].
  - intros src m e p [HG HI]. split; [now apply (fb_body _ _ _ HF)|]. destruct src; now apply HN.
Qed.
End Last.

Lemma latest_goes E fa p0 : build E fa (ctx0 [EvReqHeaders]) = BOk p0 -> ids_ok (nodess (p_queue p0)) ->
  forall ts p, goes E fa ts p -> latest E fa (nodess (p_queue p0)) (c_log (p_ctx p)) (c_vals (p_ctx p)).
Proof.
  intros Hb H1 ts p Hg. refine (proj2 (reach_inv_b _ _ _ _ (latest_finv E fa _ H1 (length (p_td p0)) (c_track (p_ctx p0))) _ _ _ Hg)).
  intros p' Hb'. rewrite Hb in Hb'. injection Hb' as <-. split; [now apply F_start|].
  pose proof (build_spec E fa (ctx0 [EvReqHeaders])) as Hsp. rewrite Hb in Hsp. destruct Hsp as (b & c1 & tds & _ & _ & Hp & (Hl & _ & _ & Hv & _) & _). cbn in Hl, Hv.
  cbn [p_emit p_with_ctx p_ctx emit with_log c_log c_vals]. rewrite Hl, Hv. split; [constructor|]. intros path. cbn [aget]. intros a1 now b' past pb xb eb tb H _ _ (e & mid & -> & _). exfalso.
  assert (Hi : In (EvEval b') [EvMetric MHits; EvReqHeaders]) by (rewrite H; apply in_or_app; right; right; apply in_or_app; right; now left).
  destruct Hi as [Hi|[Hi|[]]]; discriminate.
Qed.
