(** What an evaluation is told: the states of a request, the variables given to an expression, and where the
    cached attributes come from. *)
From Coq Require Import String List NArith Bool Lia Arith.
From Verif Require Import Base Value Headers AttrPath Ctx CelProps CelEval Sse Body ValueBytes Tasks Exec Config Legacy Blueprint Factory Filter
  P_Frame P_Apply P_Exec P_Run P_Inv P_Head P_Fed.
Import ListNotations.
Open Scope list_scope.

(** * The states of a request *)
(** every state the executor goes through, within a callback as well as between callbacks:
    [ts] are the tasks of the current pass still to be looked at *)
Inductive goes (E : env) (fa : factory) : list task -> pipe -> Prop :=
| re_start p : build E fa (ctx0 [EvReqHeaders]) = BOk p -> goes E fa [] (p_emit (EvMetric MHits) p)
| re_step ts p ts' p' : goes E fa ts p -> estep E ts p ts' p' -> goes E fa ts' p'
| re_neutral p e : goes E fa [] p -> bland e -> goes E fa [] (p_emit e p)
| re_body src n e p : goes E fa [] p -> goes E fa [] (p_body src n e p).
Lemma reach_finv E fa : finvb E (goes E fa) (fun _ => True).
Proof.
  constructor; try (intros; exact Logic.I).
  - intros. eapply re_step; eauto.
  - intros p e He Hp. apply re_neutral; assumption.
  - intros. now apply re_body.
Qed.
(** the pipeline kept between callbacks is in such a state *)
Lemma run_reach E fa l p : later l -> f_pipe (run E fa l) = Some p -> goes E fa [] (f_take (run E fa l) p).
Proof.
  intros Hl Hp. pose proof (request_invariant_b E fa _ _ (reach_finv E fa) (re_start E fa) Logic.I Logic.I (fun _ => Logic.I) l Hl) as H.
  unfold holds in H. rewrite Hp in H. apply H.
Qed.
Lemma reach_inv_b E fa (I : list task -> pipe -> Prop) L : finvb E I L ->
  (forall p, build E fa (ctx0 [EvReqHeaders]) = BOk p -> I [] (p_emit (EvMetric MHits) p)) -> forall ts p, goes E fa ts p -> I ts p.
Proof.
  intros HI Hst ts p H. induction H as [p Hb|ts p ts' p' _ IH Hs|p e _ IH He|src n e p _ IH]; auto.
  - eapply (fb_step _ _ _ HI); eauto.
  - now apply (fb_neutral _ _ _ HI).
  - now apply (fb_body _ _ _ HI).
Qed.
Lemma reach_inv E fa (I : list task -> pipe -> Prop) L : finv E I L ->
  (forall p, build E fa (ctx0 [EvReqHeaders]) = BOk p -> I [] (p_emit (EvMetric MHits) p)) -> forall ts p, goes E fa ts p -> I ts p.
Proof. intros HI. apply reach_inv_b with (L := L). now apply finv_finvb. Qed.
(** what is known of the bodies, then and by the tasks, comes from the bodies *)
Lemma fed_goes E fa ts p : goes E fa ts p -> fedI E ts p.
Proof. apply (reach_inv_b _ _ _ _ (fed_finvb E)), fed_start. Qed.

(** * The variables of an evaluation *)
(** [c1] is [c] but for body fields read and for cache entries fetched since *)
Definition near (E : env) (c c1 : ctx) : Prop :=
  (c_log c1 = c_log c /\ c_vals c1 = c_vals c /\ c_res c1 = c_res c /\ c_binds c1 = c_binds c) /\
  (forall k v, tget k (c_cache c) = Some v -> tget k (c_cache c1) = Some v) /\
  (forall k v, tget k (c_cache c) = None -> tget k (c_cache c1) = Some v -> exists q, path_show q = k /\ fetch E (c_log c) q = HOk v) /\
  (bodies_ok E c -> bodies_ok E c1).
Lemma near_refl E c : near E c c.
Proof. split; [now split|]. split; [auto|]. split; [congruence|auto]. Qed.
Lemma near_trans E a b c : near E a b -> near E b c -> near E a c.
Proof.
  intros ((A1 & A2 & A3 & A4) & A5 & A6 & A7) ((B1 & B2 & B3 & B4) & B5 & B6 & B7). split; [repeat split; congruence|]. split; [auto|]. split; [|auto].
  intros k v H1 H3. destruct (tget k (c_cache b)) as [w|] eqn:H2.
  - rewrite (B5 _ _ H2) in H3. injection H3 as <-. now apply A6.
  - rewrite <- A1. now apply (B6 k).
Qed.
Lemma near_log E c c1 : near E c c1 -> c_log c1 = c_log c.
Proof. intros [H _]. apply H. Qed.
Lemma extf_near E c c1 : extf E c c1 -> near E c c1.
Proof.
  intros [Hx Hn]. assert (Hb : bodies_ok E c -> bodies_ok E c1) by (intros [B1 B2]; split; [exact (k_extf _ heads_steady _ _ _ (conj Hx Hn) B1)|exact (bodies_ext E _ _ Hx B2)]). destruct Hx as (x & -> & Hx). split; [now split|]. split; [exact Hx|]. split; [exact Hn|exact Hb]. Qed.
Lemma near_feed E src q c q' c1 : (bodies_ok E c -> bp_ok E src (c_log c) q) -> feed_parser E src q c = RAvail (q', c1) -> near E c c1.
Proof.
  intros Hq Hf. assert (Hb : bodies_ok E c -> bodies_ok E c1).
  { intros H. specialize (Hq H). destruct H as [H1 H2]. split; [|now destruct (feed_parser_ok _ _ _ _ _ _ H2 Hq Hf)]. apply feed_parser_frame in Hf as (b & ->). apply (k_same _ heads_steady E c); [now destruct src|now destruct src|exact H1]. }
  apply feed_parser_frame in Hf as (b & ->). destruct src; (split; [now split|]); (split; [auto|]); (split; [cbn; congruence|exact Hb]).
Qed.

(** variables handed to an expression of the action [id], which takes its turn in the state [c0]: those visible to it,
    and what was bound for the expressions [pre] evaluated just before *)
Inductive incoming (E : env) (id : text) (c0 : ctx) : list expr -> ctx -> vars -> Prop :=
| in_first c : near E c0 c -> incoming E id c0 [] c (scope_vars id c)
| in_next pre p vs c vs' c' : incoming E id c0 pre c vs -> eval_vars E p vs c = (RAvail vs', c') -> incoming E id c0 (p :: pre) c' vs'.
Lemma incoming_near E id c0 pre c vs : incoming E id c0 pre c vs -> near E c0 c.
Proof.
  induction 1 as [c H|pre p vs c vs' c' _ IH He]; [exact H|]. eapply near_trans; [exact IH|]. apply extf_near. eapply eval_vars_extf; exact He.
Qed.
Lemma incoming_from E id c0 c1 pre c vs : near E c0 c1 -> incoming E id c1 pre c vs -> incoming E id c0 pre c vs.
Proof.
  intros Hn. induction 1 as [c H|pre p vs c vs' c' _ IH He]; [constructor; eapply near_trans; eauto|econstructor; eauto].
Qed.
(** in a state satisfying [K id], with the history [l], the expression [x] has the value [v] *)
Definition eval_to (E : env) (K : text -> ctx -> Prop) (id : text) (pre : list expr) (x : expr) (v : value) (l : log) : Prop :=
  exists c0 c vs0 vs c', K id c0 /\ c_log c0 = l /\ incoming E id c0 pre c vs0 /\ eval_vars E x vs0 c = (RAvail vs, c') /\ o_cel E l (ex_ast x) vs = Some v.
(** … the predicate has the value [b] *)
Definition pval (E : env) (K : text -> ctx -> Prop) (id : text) (p : expr) (b : bool) (l : log) : Prop := eval_to E K id [] p (VBool b) l.

Lemma eval_val E (K : text -> ctx -> Prop) id c0 pre x vs0 c v vs c' : K id c0 -> incoming E id c0 pre c vs0 -> eval_in E x vs0 c = (RAvail v, vs, c') ->
  eval_to E K id pre x v (c_log c) /\ ext c c' /\ incoming E id c0 (x :: pre) c' vs.
Proof.
  intros HK Hi H. pose proof (eval_in_ext _ _ _ _ _ _ _ H) as Hx. revert H. unfold eval_in.
  destruct (eval_vars E x vs0 c) as [[|vs1|] c1] eqn:Hv; try discriminate. destruct (o_cel E (c_log c1) (ex_ast x) vs1) as [v'|] eqn:Ho; [|discriminate].
  intros [= -> <- <-]. rewrite (ext_log _ _ Hx) in Ho. split; [|split; [exact Hx|econstructor; eauto]].
  exists c0, c, vs0, vs1, c1. split; [exact HK|]. split; [symmetry; eapply near_log, incoming_near; exact Hi|]. auto.
Qed.
Lemma test_val E (K : text -> ctx -> Prop) id c0 pre p vs0 c b vs c' : K id c0 -> incoming E id c0 pre c vs0 -> test_in E p vs0 c = (RAvail b, vs, c') ->
  eval_to E K id pre p (VBool b) (c_log c) /\ ext c c' /\ incoming E id c0 (p :: pre) c' vs.
Proof.
  intros HK Hi. unfold test_in. destruct (eval_in E p vs0 c) as [[r vs1] c1] eqn:He. intros H.
  assert (r = RAvail (VBool b) /\ vs1 = vs /\ c1 = c') as (-> & -> & ->) by (destruct r as [|[]|]; injection H as ? ? ?; try discriminate; subst; repeat split; congruence).
  eapply eval_val; eauto.
Qed.
Lemma first_val E (K : text -> ctx -> Prop) id c0 p c b vs c' : K id c0 -> near E c0 c -> test_in E p (scope_vars id c) c = (RAvail b, vs, c') ->
  pval E K id p b (c_log c) /\ incoming E id c0 [p] c' vs.
Proof. intros HK Hn H. destruct (test_val E K id c0 [] p _ c b vs c' HK (in_first E id c0 c Hn) H) as (H1 & _ & H2). now split. Qed.

(** * Where cached attributes come from *)
(** the host gave the value, or an action put it there *)
Definition origin (E : env) (l : log) (k : text) (cv : cached) : Prop :=
  (exists after past q, l = after ++ past /\ path_show q = k /\ fetch E past q = HOk cv) \/
  (exists m h, k = path_show (target_path m) /\ cv = CHeaders h /\ In (EvSetMap m h true) l) \/
  (exists q b, k = path_show q /\ cv = CBytes (Some b) /\ In (EvSetProp (kuadrant_host_path q) b true) l).
Lemma origin_cons E e l k cv : origin E l k cv -> origin E (e :: l) k cv.
Proof.
  intros [(after & past & q & -> & H)|[(m & h & H1 & H2 & H3)|(q & b & H1 & H2 & H3)]].
  - left. now exists (e :: after), past, q.
  - right. left. exists m, h. cbn. auto.
  - right. right. exists q, b. cbn. auto.
Qed.
Definition traced (E : env) (c : ctx) : Prop := forall k cv, tget k (c_cache c) = Some cv -> origin E (c_log c) k cv.
Lemma traced_near E c c1 : near E c c1 -> traced E c -> traced E c1.
Proof.
  intros ((Hl & _) & Hk & Hn & _) Ht k cv H. rewrite Hl. destruct (tget k (c_cache c)) as [w|] eqn:Hg.
  - rewrite (Hk _ _ Hg) in H. injection H as <-. now apply Ht.
  - destruct (Hn _ _ Hg H) as (q & Q1 & Q2). left. now exists [], (c_log c), q.
Qed.
Lemma traced_emit E e c : traced E c -> traced E (emit e c).
Proof. intros H k cv Hg. apply origin_cons. now apply H. Qed.
Lemma traced_put E p v c : (forall k, k = path_show p -> origin E (c_log c) k v) -> traced E c -> traced E (cache_put p v c).
Proof.
  intros Hv H k cv. cbn. destruct (text_eq_dec k (path_show p)) as [->|Hn].
  - rewrite (aget_aset_same text_eqb text_eqb_eq). intros [= <-]. now apply Hv.
  - rewrite (aget_aset_other text_eqb text_eqb_eq) by exact Hn. apply H.
Qed.
Lemma traced_steady : steady traced.
Proof.
  constructor.
  - intros E c c' H. apply traced_near. now apply extf_near.
  - intros E c c' H1 H2 H k cv Hg. rewrite H1. rewrite H2 in Hg. now apply H.
  - intros E e c _. apply traced_emit.
  - intros E p v c r c'. unfold set_attribute. cbv zeta. intros H Ht. apply (traced_emit E (EvSetProp (kuadrant_host_path p) v (hok (h_setprop E (c_log c) (kuadrant_host_path p) v)))) in Ht.
    destruct (h_setprop E (c_log c) (kuadrant_host_path p) v); injection H as <- <-; try exact Ht. apply traced_put; [|exact Ht].
    intros k ->. right. right. exists p, v. split; [reflexivity|]. split; [reflexivity|]. now left.
  - intros E m h c r c'. unfold set_headers. cbv zeta. intros H Ht. apply (traced_emit E (EvSetMap m h (hok (h_setmap E (c_log c) m h)))) in Ht.
    destruct (h_setmap E (c_log c) m h).
    + assert (c' = cache_put (target_path m) (CHeaders h) (emit (EvSetMap m h true) c)) as -> by (destruct m; now injection H). apply traced_put; [|exact Ht].
      intros k ->. right. left. exists m, h. split; [reflexivity|]. split; [reflexivity|]. now left.
    + destruct m; injection H as <- <-; exact Ht.
    + destruct m; injection H as <- <-; exact Ht.
Qed.
(** what holds of the history and the cache in every state of a request *)
Lemma steady_goes E fa I : steady I -> I E (ctx0 [EvReqHeaders]) -> forall ts p, goes E fa ts p -> I E (p_ctx p).
Proof.
  intros HI H0 ts p H. induction H as [p Hb|ts p ts' p' _ IH Hs|p e _ IH He|src n e p _ IH].
  - apply (k_emit _ HI); [exact Logic.I|]. now apply (k_start _ HI E fa).
  - now apply (k_estep _ HI E ts p ts').
  - apply (k_emit _ HI); [|exact IH]. now destruct e.
  - assert (H1 : I E (emit (match src with SrcReq => EvReqBody n e | SrcResp => EvRespBody n e end) (p_ctx p))) by (apply (k_emit _ HI); [now destruct src|exact IH]).
    revert H1. destruct src; now apply (k_same _ HI).
Qed.
Lemma traced_goes E fa ts p : goes E fa ts p -> traced E (p_ctx p).
Proof. apply (steady_goes E fa _ traced_steady). intros k cv [=]. Qed.
Lemma hcache_goes E fa ts p : goes E fa ts p -> hcache E (p_ctx p).
Proof. apply (steady_goes E fa _ hc_steady). intros m. cbn. intros e [<-|[]] (h & [=]). Qed.
(** the states in which the action [id] takes its turn *)
Definition at_work (E : env) (fa : factory) (id : text) (c0 : ctx) : Prop :=
  exists t ts p, goes E fa (t :: ts) p /\ t_id t = id /\ c0 = emit (EvEval id) (p_ctx p).
