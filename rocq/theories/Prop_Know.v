(** What an expression is told when it is evaluated: the meaning of "the text [x] has the value [v]" used by the
    properties about actions. *)
From Coq Require Import String Ascii List NArith ZArith Bool Lia Arith Permutation.
From Verif Require Import Base Value Headers AttrPath Ctx CelProps CelEval Sse Body ValueBytes Tasks Exec Config Legacy Blueprint Factory Filter
  P_Frame P_Apply P_Exec P_Run P_Inv P_Ids P_Plan P_Deps P_Order P_Term P_Bar P_Cfg P_Hist P_Grow P_Wake P_Fail P_Head P_Fed P_Told P_Eff P_Rid P_Route P_Scope P_Eval P_Props
  Prop_Order Prop_Term Prop_Guard Prop_Wake Prop_Fail Prop_Eval.
From Verif Require Prop_Paths Prop_Decode P_Last.
Import ListNotations.
Open Scope list_scope.

(** * Specifications *)
(** the action with id [a] inside the set that serves the request *)
Definition has_action (E : env) (cfg : plugin_cfg) (s : action_set) (a : text) (x : taction) : Prop :=
  exists svs, cfg_svs cfg = Some svs /\ configured svs (cfg_rsrc E cfg) s a x.
(** In the history [h] the call action [a] took up a successful response, before processing was over;
    read as a message of its service [sv] that response is [v]. *)
Definition got_reply (E : env) (sv : svc) (a : text) (v : value) (h : log) : Prop :=
  exists after now past k sz body,
    h = after ++ now /\ now = EvEval a :: EvHandle k a :: EvGrpcResp k 0 sz :: past /\
    (forall e, In e past -> match e with EvTerminate _ => False | _ => True end) /\
    h_grpcresp E now sz = Some body /\ o_decode E now sv body = Some v.
(** The reply [v] of the call [a] is there under the name [n], for the action [b] which is [a] itself or
    one of the actions nested at any depth in the reply actions of [a]. *)
Definition answers (E : env) (cfg : plugin_cfg) (s : action_set) (h : log) (b : text) (y : taction) (a : text) (x : taction) (n : text) (v : value) : Prop :=
  has_action E cfg s a x /\ within a x b y /\
  exists p tm g sq service msg r rs svs k sv,
    x = mkT p tm g sq (OpGrpc n service msg (r :: rs)) /\ cfg_svs cfg = Some svs /\ tget service svs = Some (IDyn k sv) /\
    got_reply E sv a v h.
(** the variable [n] with the value [v] is there for the action [b] *)
Definition visible (b n : text) (v : value) (c : ctx) : Prop := In (n, v) (scope_vars b c).

(** the name under which the host gets the value of [path]: one name, in the namespace kuadrant *)
Definition exported_as (name : text) (p : path) : Prop := ~ In backslash name -> p = [tx "kuadrant." ++ name].
(** an accepted write of the header map [m] *)
Definition wrote (m : maptype) (e : ev) : Prop := exists h, e = EvSetMap m h true.
(** the headers [m] as far as the plugin knows: those it wrote last; before that, those it got
    from the host at some moment *)
Definition current (E : env) (m : maptype) (past : log) (h : headers) : Prop :=
  (exists after before, past = after ++ EvSetMap m h true :: before /\ forall e, In e after -> ~ wrote m e) \/
  ((forall e, In e past -> ~ wrote m e) /\ exists after before, past = after ++ before /\ h_map E before m = HOk h).

(** what the host says about the attribute [p] when [past] has happened *)
Inductive host_says (E : env) (past : log) : path -> option text -> Prop :=
| hs_prop p b : ~ In p [[tx "request"; tx "headers"]; [tx "response"; tx "headers"]; [tx "source"; tx "remote_address"]] -> hd [] p <> tx "auth" ->
    h_prop E past p = HOk b -> host_says E past p b
| hs_auth q hp b : ((forall t, In t q -> ~ In dot t /\ ~ In backslash t) -> hp = [tx "filter_state"; tx "wasm.kuadrant." ++ joined (tx "auth" :: q)]) ->
    h_prop E past hp = HOk b -> host_says E past (tx "auth" :: q) b
| hs_remote b : h_prop E past [tx "source"; tx "address"] = HOk b -> host_says E past [tx "source"; tx "remote_address"] (option_map strip_port b).
(** what the plugin knows about the attribute [p]: the headers; what the host said at some moment, perhaps about
    an attribute of the same name (if the name has backslashes); the bytes exported under that name *)
Inductive supplied (E : env) (past : log) (p : path) : cached -> Prop :=
| su_headers m h : p = [match m with MReq => tx "request" | MResp => tx "response" end; tx "headers"] -> current E m past h -> supplied E past p (CHeaders h)
| su_host after before q b : past = after ++ before -> path_show q = path_show p -> (~ In backslash (path_show p) -> path_show p <> [] -> q = p) ->
    host_says E before q b -> supplied E past p (CBytes b)
| su_exported hp b : In (EvSetProp hp b true) past -> exported_as (path_show p) hp -> supplied E past p (CBytes (Some b)).
(** the expressions of an action; names without backslashes in all of them *)
Definition texts (y : taction) : list text :=
  match y with mkT p _ _ _ op => p :: match op with OpGrpc _ _ m _ => [m] | OpDeny d => [d] | OpHeaders _ x => [x] | OpStore _ x _ => [x] | OpFail _ => [] end end.
Definition clean_action (E : env) (y : taction) : Prop := forall x e, In x (texts y) -> parse_expr E x = Some e -> clean (ex_ast e).
Definition stores (E : env) (cfg : plugin_cfg) (s : action_set) (name : text) : Prop :=
  exists b pr tm g sq x export, has_action E cfg s b (mkT pr tm g sq (OpStore name x export)).
(** for the action [a] the name [n] means the innermost reply of that name, of the calls it is nested in *)
Definition reply_named (E : env) (cfg : plugin_cfg) (s : action_set) (past : log) (a : text) (n : text) (vs : vars) : Prop :=
  forall y, has_action E cfg s a y -> clean_action E y ->
  match tget n vs with
  | Some v => exists b x, answers E cfg s past a y b x n v /\ forall b' x' v', answers E cfg s past a y b' x' n v' -> within b' x' b x
  | None => forall b x v, ~ answers E cfg s past a y b x n v
  end.
(** names the evaluator always binds *)
Definition taken : list text := [tx "request"; tx "metadata"; tx "source"; tx "destination"; tx "auth"; tx "@requestBodyJSON"; tx "@responseBodyJSON"].
(** the expression asks for the field [f] of the body of [src] *)
Definition body_fn (src : Tasks.source) : text := match src with SrcReq => tx "requestBodyJSON" | SrcResp => tx "responseBodyJSON" end.
Definition body_var (src : Tasks.source) : text := match src with SrcReq => tx "@requestBodyJSON" | SrcResp => tx "@responseBodyJSON" end.
Inductive asks (src : Tasks.source) (f : text) : ast -> Prop :=
| as_here : asks src f (ACall None (body_fn src) [ALit (VString f)])
| as_inside e x : sub e x -> asks src f x -> asks src f e.
(** the variables [vs] have the value [w] for the field [f] of the body of [src] *)
Definition body_seen (src : Tasks.source) (vs : vars) (f : text) (w : value) : Prop :=
  exists m, tget (body_var src) vs = Some (VMap m) /\ aget mkey_eqb (KStr f) m = Some w.
(** [now] is a history whose last event is the end of the action [a], by an evaluation that began when [past] had happened *)
Definition completed (a : text) (past now : log) : Prop :=
  exists e mid, now = e :: mid ++ EvEval a :: past /\ (e = EvDone a \/ e = EvTerminate a) /\
    forall e', In e' mid -> match e' with EvEval _ => False | _ => True end.
(** When [past] has happened, the text [x], which is an expression of the action [a], has the value [v]: that is
    what the CEL interpreter says, given variables [vs] in which the attributes standing in the expression and
    the replies have the values known by then. *)
Inductive evaluates (E : env) (cfg : plugin_cfg) (s : action_set) : text -> text -> value -> log -> Prop :=
| ev_value a x v past e vs :
    parse_expr E x = Some e -> o_cel E past (ex_ast e) vs = Some v ->
    (clean (ex_ast e) -> tidy (ex_ast e) -> forall p, mentions (ex_ast e) p -> bindable p -> (hd [] p = tx "request" -> ~ stores E cfg s (tx "request")) ->
       (exists q more w, p = q ++ more /\ sees q vs w /\ known E cfg s q w past) \/
       (is_host_root (hd [] p) = false /\ if text_eqb (hd [] p) (tx "auth") then tget (tx "auth") vs = Some VNull else reply_named E cfg s past a (hd [] p) vs)) ->
    (forall n, ~ In n taken -> is_host_root n = false -> ~ In dot n -> (forall name, stores E cfg s name -> name <> n /\ forall r, name <> n ++ dot :: r) ->
       reply_named E cfg s past a n vs) ->
    (forall src f, asks src f (ex_ast e) -> exists w, body_seen src vs f w /\ body_says E src past f w) ->
    (clean (ex_ast e) -> forall n, ~ In dot n -> is_host_root n = false -> json_name n = false ->
       (exists w, tget n vs = Some w /\ newest E cfg s n w past) \/ skipped E cfg s n 0 past) ->
    evaluates E cfg s a x v past
(** when [past] has happened, [w] is known about the attribute [q]: from the host; or it is the value stored there *)
with known (E : env) (cfg : plugin_cfg) (s : action_set) : path -> value -> log -> Prop :=
| kn_host q w past cv : supplied E past q cv -> Prop_Decode.reads_as E (at_type (attr_for q)) cv w -> known E cfg s q w past
| kn_stored q w past : newest E cfg s (joined q) w past -> known E cfg s q w past
(** [w] is the value that was stored under [name] last: a store action of that name, whose condition was true, ended
    with it, and those that ended after it had a false condition *)
with newest (E : env) (cfg : plugin_cfg) (s : action_set) : text -> value -> log -> Prop :=
| nw_stored name w after now b past pr tm g sq x export :
    has_action E cfg s b (mkT pr tm g sq (OpStore name x export)) -> completed b past now ->
    evaluates E cfg s b pr (VBool true) (EvEval b :: past) -> evaluates E cfg s b x w (EvEval b :: past) ->
    skipped E cfg s name (length now) (after ++ now) ->
    newest E cfg s name w (after ++ now)
(** the store actions of [name] that ended after the first [n] events had a false condition *)
with skipped (E : env) (cfg : plugin_cfg) (s : action_set) : text -> nat -> log -> Prop :=
| sk_all name n h :
    (forall after now b past pr tm g sq x export, h = after ++ now -> n < length now ->
       has_action E cfg s b (mkT pr tm g sq (OpStore name x export)) -> completed b past now -> evaluates E cfg s b pr (VBool false) (EvEval b :: past)) ->
    skipped E cfg s name n h.

(** * Lemmas *)
Lemma serves_nodes E cfg fa s p : serves E cfg fa s -> build E fa (ctx0 [EvReqHeaders]) = BOk p ->
  forall nd, In nd (nodess (p_queue p)) -> (exists svs a x, cfg_svs cfg = Some svs /\ configured svs (cfg_rsrc E cfg) s a x /\ describes E svs a x nd) \/ dev_node nd.
Proof.
  intros (Hin & svs & bp & c & Hsv & Hc & Hsel) Hb nd Hi.
  destruct (built_nodes E cfg fa s svs bp c p Hsv Hc Hsel Hb nd Hi) as [(a & x & H1 & H2)|H]; [|now right]. left. eauto 6.
Qed.
Lemma over_terminate past : ~ over past <-> forall e, In e past -> match e with EvTerminate _ => False | _ => True end.
Proof.
  unfold over. split.
  - intros H e He. destruct e; auto. apply H. now exists id.
  - intros H (id & He). exact (H _ He).
Qed.
Lemma served_V E cfg fa s p : serves E cfg fa s -> build E fa (ctx0 [EvReqHeaders]) = BOk p ->
  forall ts q, goes E fa ts q -> V E (at_work E fa) (length (p_td p)) (nodess (p_queue p)) ts q.
Proof. intros (Hin & svs & bp & c & H1 & H2 & H3) Hb. apply V_reach; [exact Hb|]. eapply built_calls; eauto. Qed.
Lemma reach_build E fa ts p : goes E fa ts p -> exists p0, build E fa (ctx0 [EvReqHeaders]) = BOk p0.
Proof. induction 1; eauto. Qed.
(** what is bound is the reply of a configured call, and conversely *)
Lemma bound_replies E cfg fa s ts p : serves E cfg fa s -> goes E fa ts p -> forall a n v,
  bound a n v (c_binds (p_ctx p)) <->
  exists x pr tm g sq service msg r rs svs k sv, has_action E cfg s a x /\ x = mkT pr tm g sq (OpGrpc n service msg (r :: rs)) /\
    cfg_svs cfg = Some svs /\ tget service svs = Some (IDyn k sv) /\ got_reply E sv a v (c_log (p_ctx p)).
Proof.
  intros Hs Hr a n v. destruct (reach_build _ _ _ _ Hr) as (p0 & Hb). pose proof (served_V _ _ _ _ _ Hs Hb _ _ Hr) as HV.
  rewrite (v_bound _ _ _ _ _ _ HV a n v). pose proof Hs as (Hin & svs & bp & c & Hsv & Hc & Hsel). split.
  - intros (after & now & Hl & (k & st & sz & past & sv & g & kids & Hn & Ho & Hi & Hv)).
    destruct (serves_nodes _ _ _ _ _ Hs Hb _ Hi) as [(svs' & a' & [pr tm g' sq op] & Hsv' & Hc' & (pe & _ & Hd))|Hd].
    + assert (svs' = svs) as -> by congruence. destruct op; try easy. destruct Hd as (<- & <- & <- & (kd & Hk) & ->).
      unfold reply_value in Hv. destruct (N.eqb_spec st 0) as [->|]; [|discriminate]. destruct on_reply as [|r rs]; [discriminate|]. cbn [length map seq Nat.eqb] in Hv.
      destruct (h_grpcresp E now sz) as [body|] eqn:Hbody; [|discriminate].
      exists (mkT pr tm g sq (OpGrpc n service message (r :: rs))), pr, tm, g, sq, service, message, r, rs, svs, kd, sv.
      split; [now exists svs|]. split; [reflexivity|]. split; [exact Hsv|]. split; [exact Hk|].
      exists after, now, past, k, sz, body. split; [exact Hl|]. split; [exact Hn|]. split; [now apply over_terminate|]. now split.
    + destruct Hd as (_ & _ & ->). unfold reply_value in Hv. cbn in Hv. now destruct (st =? 0)%N.
  - intros (x & pr & tm & g & sq & service & msg & r & rs & svs1 & k & sv & (svs2 & Hsv2 & Hx) & -> & Hsv1 & Hk & (after & now & past & tok & sz & body & Hl & Hn & Ht & Hbd & Hdc)).
    assert (svs1 = svs) as -> by congruence. assert (svs2 = svs) as -> by congruence.
    destruct (built_all _ _ _ _ _ _ _ _ Hsv Hc Hsel Hb _ _ Hx) as (nd & Hi & Hm & (pe & _ & Hd)). destruct nd; try easy.
    destruct Hd as (-> & -> & -> & (k' & Hk') & ->). rewrite Hk in Hk'. injection Hk' as <- <-.
    exists after, now. split; [exact Hl|]. exists tok, 0%N, sz, past, sv, g. eexists. split; [exact Hn|]. split; [now apply over_terminate|]. split; [exact Hi|].
    unfold reply_value. cbn [length map seq Nat.eqb N.eqb]. now rewrite Hbd.
Qed.
Lemma visible_bound b n v c : visible b n v c <-> exists a, below a b /\ bound a n v (c_binds c).
Proof.
  unfold visible, scope_vars. rewrite <- in_rev, in_flat_map. split.
  - intros ([a bs] & H1 & H2). cbn [fst snd] in H2. destruct (is_ancestor a b) eqn:Ha; [|easy]. exists a. split; [now apply is_ancestor_below|]. now exists bs.
  - intros (a & Ha & bs & H1 & H2). exists (a, bs). split; [exact H1|]. cbn [fst snd]. apply is_ancestor_below in Ha. now rewrite Ha.
Qed.

Lemma innermost_reply E cfg fa s ts p b y n v :
  serves E cfg fa s -> goes E fa ts p -> has_action E cfg s b y ->
  tget n (scope_vars b (p_ctx p)) = Some v ->
  exists a x, answers E cfg s (c_log (p_ctx p)) b y a x n v /\
    forall a' x' v', answers E cfg s (c_log (p_ctx p)) b y a' x' n v' -> within a' x' a x.
Proof.
  intros Hs Hr Hy Hv. pose proof (scope_last _ _ _ _ (reach_ordered _ _ _ _ Hr) Hv) as (a & Ha & Hbd & Hmax). apply is_ancestor_below in Ha. destruct Hy as (svs & Hsv & Hy).
  pose proof Hbd as Hbd'. apply (bound_replies _ _ _ _ _ _ Hs Hr) in Hbd' as (x & pr & tm & g & sq & service & msg & r & rs & svs' & k & sv & (svs2 & Hsv2 & Hx) & -> & Hsv' & Hk & Hg).
  assert (svs2 = svs) as -> by congruence. exists a, (mkT pr tm g sq (OpGrpc n service msg (r :: rs))). split.
  { split; [now exists svs|]. split; [now apply (configured_below _ _ _ _ _ _ _ Hx Hy)|]. exists pr, tm, g, sq, service, msg, r, rs, svs', k, sv. auto. }
  intros a' x' v' ((svs2 & Hsv3 & Hx') & Hw' & pr' & tm' & g' & sq' & service' & msg' & r' & rs' & svs3 & k' & sv' & He & Hsv4 & Hk' & Hg').
  assert (svs2 = svs) as -> by congruence. apply (configured_below _ _ _ _ _ _ _ Hx' Hx).
  assert (Ha' : below a' b) by now apply within_below in Hw'.
  destruct (Nat.le_gt_cases (length a') (length a)) as [Hle|Hlt]; [eapply below_both; eauto|].
  assert (Haa : below a a') by (eapply below_both; eauto; lia).
  assert (Hlb : text_leb a' a = true).
  { apply (Hmax a' v'); [now apply is_ancestor_below|]. apply (bound_replies _ _ _ _ _ _ Hs Hr).
    exists x', pr', tm', g', sq', service', msg', r', rs', svs3, k', sv'. split; [now exists svs|]. auto. }
  destruct Haa as [->|(t & ->)]; [apply below_refl|]. exfalso. pose proof (leb_antisym _ _ Hlb (leb_prefix a (dot :: t))) as H.
  apply (f_equal (@length _)) in H. rewrite app_length in H. cbn in H. lia.
Qed.
Lemma parse_word t : forall pre rest, ~ In backslash t -> ~ In dot t -> path_parse_from pre (t ++ rest) = path_parse_from (pre ++ t) rest.
Proof.
  induction t as [|c t IH]; intros pre rest Hb Hd; [now rewrite app_nil_r|]. cbn [app path_parse_from].
  destruct (Ascii.eqb_spec c dot) as [->|]; [exfalso; apply Hd; now left|]. destruct (Ascii.eqb_spec c backslash) as [->|]; [exfalso; apply Hb; now left|].
  rewrite IH; [now rewrite <- app_assoc|intros H; apply Hb; now right|intros H; apply Hd; now right].
Qed.
Lemma parse_some s : ~ In backslash s -> forall tok, exists a p, path_parse_from tok s = a :: p.
Proof.
  induction s as [|c s IH]; intros Hs tok; cbn [path_parse_from]; [eauto|]. destruct (Ascii.eqb c dot); [eauto|].
  destruct (Ascii.eqb_spec c backslash) as [->|]; [exfalso; apply Hs; now left|]. apply IH. intros H. apply Hs. now right.
Qed.
Lemma parse_joined s : forall pre tok, ~ In backslash s -> ~ In dot tok -> ~ In backslash tok ->
  path_parse_from pre (join [backslash; dot] (path_parse_from tok s)) = [pre ++ tok ++ s].
Proof.
  induction s as [|c s IH]; intros pre tok Hs Hd Hb; cbn [path_parse_from].
  - cbn [join]. rewrite <- (app_nil_r tok) at 1. rewrite parse_word by assumption. cbn. now rewrite app_nil_r.
  - assert (Hs' : ~ In backslash s) by (intros H; apply Hs; now right). destruct (Ascii.eqb_spec c dot) as [->|Hc].
    + specialize (IH (pre ++ tok ++ [dot]) [] Hs' (fun x => x) (fun x => x)). destruct (parse_some s Hs' []) as (a & p & Hp). rewrite Hp in *.
      change (join [backslash; dot] (tok :: a :: p)) with (tok ++ [backslash; dot] ++ join [backslash; dot] (a :: p)).
      rewrite parse_word by assumption. cbn [app path_parse_from]. change (Ascii.eqb backslash dot) with false. change (Ascii.eqb backslash backslash) with true. cbv iota.
      rewrite <- app_assoc, IH. cbn [app]. now rewrite <- !app_assoc.
    + destruct (Ascii.eqb_spec c backslash) as [->|Hc']; [exfalso; apply Hs; now left|]. rewrite IH; [now rewrite <- app_assoc|exact Hs'| |];
        rewrite in_app_iff; intros [H|[H|[]]]; auto.
Qed.
Lemma host_name path : exported_as path (kuadrant_host_path (path_parse path)).
Proof.
  intros Hp. unfold kuadrant_host_path, path_parse. 
  transitivity (path_parse_from (tx "kuadrant.") (join [backslash; dot] (path_parse_from [] path))); [reflexivity|].
  apply parse_joined; auto.
Qed.
Lemma basis_current E m l h : basis E m l h -> current E m l h.
Proof. intros [(a & b & H1 & H2)|(H1 & a & b & H2 & H3)]; [left; exists a, b; auto|right; split; [exact H1|exists a, b; auto]]. Qed.

(** ** What the cache says *)
Lemma split_word t pre rest : ~ In backslash t -> ~ In dot t -> path_parse_from pre (t ++ [backslash; dot] ++ rest) = path_parse_from (pre ++ t ++ [dot]) rest.
Proof.
  intros H1 H2. rewrite parse_word by assumption. cbn [app path_parse_from]. change (Ascii.eqb backslash dot) with false. change (Ascii.eqb backslash backslash) with true. cbv iota.
  now rewrite <- app_assoc.
Qed.
Lemma parse_segments q : (forall t, In t q -> ~ In dot t /\ ~ In backslash t) -> q <> [] -> forall pre, path_parse_from pre (join [backslash; dot] q) = [pre ++ joined q].
Proof.
  induction q as [|t q IH]; intros Hq Hne pre; [easy|]. destruct (Hq t (or_introl eq_refl)) as [H1 H2]. destruct q as [|u q].
  - cbn [join joined]. rewrite <- (app_nil_r t) at 1. rewrite parse_word by assumption. reflexivity.
  - change (join [backslash; dot] (t :: u :: q)) with (t ++ [backslash; dot] ++ join [backslash; dot] (u :: q)). rewrite split_word by assumption.
    rewrite IH; [|intros x Hx; apply Hq; now right|easy]. change (joined (t :: u :: q)) with (t ++ dot :: joined (u :: q)). now rewrite <- !app_assoc.
Qed.
Lemma path_eqb_eq a b : path_eqb a b = true <-> a = b.
Proof.
  unfold path_eqb. rewrite andb_true_iff, Nat.eqb_eq. split; [|intros ->; split; [reflexivity|]].
  - intros [H1 H2]. revert b H1 H2. induction a as [|x a IH]; intros [|y b]; try easy. cbn [length combine forallb fst snd]. intros [= H1] H2. apply andb_prop in H2 as [H2 H3].
    apply text_eqb_eq in H2. f_equal; auto.
  - induction b as [|y b IH]; [reflexivity|]. cbn [combine forallb fst snd]. now rewrite text_eqb_refl, IH.
Qed.
Lemma fetch_says E l q b : fetch E l q = HOk (CBytes b) -> host_says E l q b.
Proof.
  unfold fetch. destruct (path_eqb q p_req_headers) eqn:H1; [destruct (h_map E l MReq); discriminate|].
  destruct (path_eqb q p_resp_headers) eqn:H2; [destruct (h_map E l MResp); discriminate|].
  destruct (path_eqb q [tx "source"; tx "remote_address"]) eqn:H3.
  - apply path_eqb_eq in H3 as ->. unfold remote_address. destruct (h_prop E l [tx "source"; tx "address"]) as [[a|]| |] eqn:Hp; try discriminate.
    + destruct (utf8_valid a); [|discriminate]. intros [= <-]. now apply (hs_remote E l (Some a)).
    + intros [= <-]. now apply (hs_remote E l None).
  - assert (Hn : ~ In q [[tx "request"; tx "headers"]; [tx "response"; tx "headers"]; [tx "source"; tx "remote_address"]]).
    { intros [<-|[<-|[<-|[]]]]; [discriminate H1|discriminate H2|discriminate H3]. }
    destruct q as [|r q]; [destruct (h_prop E l []) eqn:Hp; try discriminate; intros [= <-]; now apply hs_prop|].
    destruct (text_eqb r (tx "auth")) eqn:Hr.
    + apply text_eqb_eq in Hr as ->. destruct (h_prop E l (wasm_prop _)) as [a| |] eqn:Hp; try discriminate. intros [= <-].
      apply (hs_auth E l q (wasm_prop (tx "auth" :: q))); [|exact Hp]. intros Hq. unfold wasm_prop, path_parse.
      transitivity (tx "filter_state" :: path_parse_from (tx "wasm.kuadrant.") (join [backslash; dot] (tx "auth" :: q))); [reflexivity|].
      rewrite parse_segments; [reflexivity| |easy]. intros t [<-|Ht]; [vm_compute; intuition discriminate|now apply Hq].
    + destruct (h_prop E l (r :: q)) as [a| |] eqn:Hp; try discriminate. intros [= <-]. apply hs_prop; [exact Hn| |exact Hp]. cbn [hd]. intros ->. now rewrite text_eqb_refl in Hr.
Qed.
Lemma show_backslash q t : In t q -> In backslash t \/ In dot t -> In backslash (path_show q).
Proof.
  intros H1 H2. apply (join_In _ (esc_dots t)); [now apply in_map|]. destruct H2 as [H2|H2]; [now apply esc_dots_In|]. clear H1. induction t as [|ch t IH]; [easy|].
  cbn [esc_dots]. destruct H2 as [->|H2]; [now left|]. specialize (IH H2). destruct (Ascii.eqb ch dot); [right; now right|now right].
Qed.
Lemma esc_plain t : ~ In dot t -> esc_dots t = t.
Proof.
  induction t as [|ch t IH]; [reflexivity|]. intros H. cbn [esc_dots]. destruct (Ascii.eqb_spec ch dot) as [->|]; [exfalso; apply H; now left|]. f_equal. apply IH. intros H'. apply H. now right.
Qed.
Lemma show_joined q : (forall t, In t q -> ~ In dot t) -> path_show q = joined q.
Proof.
  unfold path_show. induction q as [|t q IH]; intros Hq; [reflexivity|]. cbn [map]. rewrite esc_plain by (apply Hq; now left). destruct q as [|u q]; [reflexivity|].
  change (joined (t :: u :: q)) with (t ++ dot :: joined (u :: q)). rewrite <- IH by (intros x Hx; apply Hq; now right). reflexivity.
Qed.
Lemma shown_alike p q : Prop_Paths.plain p -> path_show q = path_show p -> ~ In backslash (path_show p) -> path_show p <> [] -> q = p.
Proof.
  intros Hp Hs Hb Hne. apply Prop_Paths.path_show_inj; [|exact Hp|exact Hs]. split.
  - intros ->. now rewrite <- Hs in Hne.
  - intros t Ht Hi. apply Hb. rewrite <- Hs. eapply show_backslash; eauto.
Qed.
Lemma exported_shown p q : path_show q = path_show p -> exported_as (path_show p) (kuadrant_host_path q).
Proof.
  intros Hs Hb. rewrite <- Hs in *. assert (Hq : forall t, In t q -> ~ In dot t /\ ~ In backslash t) by (intros t Ht; split; intros Hi; apply Hb; eapply show_backslash; eauto).
  rewrite show_joined by (intros t Ht; now apply Hq). unfold kuadrant_host_path, path_parse.
  transitivity (path_parse_from (tx "kuadrant.") (join [backslash; dot] q)); [reflexivity|]. destruct q as [|t q]; [reflexivity|]. now apply parse_segments.
Qed.
Lemma hcache_near E c c1 : near E c c1 -> hcache E c -> hcache E c1.
Proof.
  intros ((Hl & _) & Hk & Hn & _) HH m. specialize (HH m). unfold cache_get in *. rewrite Hl. destruct (tget (path_show (target_path m)) (c_cache c)) as [v|] eqn:Hg.
  - now rewrite (Hk _ _ Hg).
  - destruct (tget (path_show (target_path m)) (c_cache c1)) as [v|] eqn:Hg'; [|exact HH].
    destruct (Hn _ _ Hg Hg') as (q & Q1 & Q2). symmetry in Q1. apply target_key in Q1. subst q.
    destruct (fetch_target _ _ _ _ Q2) as (h & -> & Hm). right. split; [exact HH|]. exists [], (c_log c). now split.
Qed.
Lemma fetch_headers E l q h : fetch E l q = HOk (CHeaders h) -> exists m, q = target_path m.
Proof.
  unfold fetch. destruct (path_eqb q p_req_headers) eqn:H1; [apply path_eqb_eq in H1; intros _; now exists MReq|].
  destruct (path_eqb q p_resp_headers) eqn:H2; [apply path_eqb_eq in H2; intros _; now exists MResp|].
  destruct (path_eqb q [tx "source"; tx "remote_address"]); [destruct (remote_address E l); intros H; inversion H|].
  destruct q as [|r q]; [destruct (h_prop E l []); intros H; inversion H|]. destruct (h_prop E l _); intros H; inversion H.
Qed.
Lemma cache_supplied E c p cv : traced E c -> hcache E c -> Prop_Paths.plain p -> cache_get p c = Some cv -> supplied E (c_log c) p cv.
Proof.
  intros Ht Hh Hp Hg. destruct cv as [b|h].
  - destruct (Ht _ _ Hg) as [(after & past & q & H1 & H2 & H3)|[(m & h & _ & H & _)|(q & b' & H1 & [= ->] & H3)]]; [|discriminate|].
    + eapply su_host; [exact H1|exact H2|now apply shown_alike|now apply fetch_says].
    + eapply su_exported; [exact H3|]. now apply exported_shown.
  - assert (exists m, p = target_path m) as (m & ->).
    { destruct (Ht _ _ Hg) as [(after & past & q & _ & H2 & H3)|[(m & h' & H1 & _)|(q & b & _ & H & _)]]; [|exists m; now apply target_key|discriminate].
      destruct (fetch_headers _ _ _ _ H3) as (m & ->). exists m. now apply target_key. }
    specialize (Hh m). rewrite Hg in Hh. apply (su_headers _ _ _ m); [now destruct m|]. now apply basis_current.
Qed.
Lemma host_read_supplied E c q w : traced E c -> hcache E c -> Prop_Paths.plain q -> host_read E c q = RAvail w ->
  exists cv, supplied E (c_log c) q cv /\ Prop_Decode.reads_as E (at_type (attr_for q)) cv w.
Proof.
  intros Ht Hh Hq. unfold host_read. destruct (read_attr E q c) as [r c1] eqn:Hr. cbn [fst]. destruct r as [|cv|]; try discriminate.
  destruct (decode E _ cv) as [w'|] eqn:Hd; [|discriminate]. intros [= ->]. exists cv. split; [|now apply Prop_Decode.decode_reads].
  pose proof (read_attr_extf _ _ _ _ _ Hr) as Hx. apply extf_near in Hx. rewrite <- (near_log _ _ _ Hx). apply cache_supplied; [now apply (traced_near E c)|now apply (hcache_near E c)|exact Hq|].
  revert Hr. unfold read_attr. destruct (cache_get q c) eqn:Hg; [intros [= -> <-]; exact Hg|]. destruct (fetch E (c_log c) q) eqn:Hf; try discriminate. intros H0. injection H0 as -> <-. unfold cache_get, cache_put. cbn. apply (aget_aset_same text_eqb text_eqb_eq).
Qed.

(** ** What names mean *)
(** An expression evaluated with the variables [vs] sees under the name [n] what [vs] has there. *)
Lemma name_kept E e vs c vs' c' n :
  clean e -> eval_vars E (expr_of e) vs c = (RAvail vs', c') -> ~ In n taken -> tget n (c_vals c) = None -> ~ root_known c n -> tget n vs' = tget n vs.
Proof.
  intros Hc He Hn Hv Hr. apply eval_vars_spec in He as [[_ (m & rv & Hvo)] _]; [|now apply expr_tidy_attrs].
  assert (X : forall x, In x taken -> text_eqb n x = false).
  { intros x Hx. destruct (text_eqb n x) eqn:Hq; [|reflexivity]. apply text_eqb_eq in Hq. now subst x. }
  assert (Hj : json_name n = false) by (unfold json_name, req_json_var, resp_json_var; rewrite !X; cbn; tauto).
  rewrite (vars_get _ _ _ _ _ _ _ n Hvo Hj (or_intror Hv)). rewrite (X (tx "request")) by now left.
  assert (Hf : mem_text n fixed_names = false) by (unfold mem_text, fixed_names; cbn [existsb]; rewrite !X; cbn; tauto). rewrite Hf.
  destruct (mget n m) as [w|] eqn:Hm; [|now rewrite andb_false_r]. exfalso. unfold mget in Hm. apply (aget_In mkey_eqb mkey_eqb_eq) in Hm.
  destruct (vo_keys _ _ _ _ _ _ _ Hvo _ _ Hm) as (t & [= <-] & _ & [H|H]); congruence.
Qed.
Definition cleaned (E : env) (e : expr) : Prop := exists x, parse_expr E x = Some e /\ clean (ex_ast e).
Lemma parsed_of E x e : parse_expr E x = Some e -> e = expr_of (ex_ast e).
Proof. unfold parse_expr. destruct (o_parse E x) as [a|]; [|discriminate]. intros [= <-]. reflexivity. Qed.
Lemma root_known_near E c0 c n : near E c0 c -> root_known c n <-> root_known c0 n.
Proof. intros ((_ & H1 & H2 & _) & _). unfold root_known. now rewrite H1, H2. Qed.
Lemma scope_near E c0 c id : near E c0 c -> scope_vars id c = scope_vars id c0.
Proof. intros ((_ & _ & _ & H) & _). unfold scope_vars. now rewrite H. Qed.
Lemma incoming_name E id c0 pre c vs n : incoming E id c0 pre c vs -> (forall e, In e pre -> cleaned E e) ->
  ~ In n taken -> tget n (c_vals c0) = None -> ~ root_known c0 n -> tget n vs = tget n (scope_vars id c0).
Proof.
  intros Hi Hp Hn Hv Hr. induction Hi as [c Hnr|pre p vs c vs' c' Hi IH He]; [now rewrite (scope_near _ _ _ _ Hnr)|].
  destruct (Hp p (or_introl eq_refl)) as (x & Hx & Hc). rewrite (parsed_of _ _ _ Hx) in He. pose proof (incoming_near _ _ _ _ _ _ Hi) as Hnr.
  rewrite <- IH by (intros e He'; apply Hp; now right). eapply name_kept; [exact Hc|exact He|exact Hn| |].
  - now rewrite (proj1 (proj2 (proj1 Hnr))).
  - now rewrite (root_known_near _ _ _ _ Hnr).
Qed.

(** ** Body fields *)
Definition fields_of (src : Tasks.source) (s : CelProps.pstate) : list text := match src with SrcReq => ps_req s | SrcResp => ps_resp s end.
Lemma note_keeps src t f args s x : In x (fields_of src s) -> In x (fields_of src (note_body t f args s)).
Proof.
  intros H. unfold note_body. destruct t; [exact H|]. destruct args as [|a [|]]; try exact H.
  destruct (text_eqb f resp_json_fn); [|destruct (text_eqb f req_json_fn); [|exact H]]; destruct a as [[]| | | | | | | |]; try exact H; destruct src; cbn in *; try exact H; apply in_or_app; now left.
Qed.
Lemma props_keeps src x : forall e s, In x (fields_of src s) -> In x (fields_of src (props e s)).
Proof.
  induction e as [v|n|e f b0 IH|t f args IHt IHa|l IH|l IH|n l IH|a b c d e y z Ia Ib Ic Id Ie|] using ast_ind'; intros s Hs; try exact Hs.
  - cbn [props]. destruct (ps_path s); [exact Hs|]. now destruct src.
  - cbn [props]. apply IH. now destruct src.
  - rewrite props_call. assert (H2 : In x (fields_of src (match t with Some x => props x (note_body t f args s) | None => set_path [] (note_body t f args s) end))).
    { destruct t as [t|]; [apply (IHt t eq_refl); now apply note_keeps|]. apply (note_keeps src None f args) in Hs. now destruct src. }
    revert H2. generalize (match t with Some x => props x (note_body t f args s) | None => set_path [] (note_body t f args s) end) as s2. clear - IHa.
    induction IHa as [|y args Hy _ IH]; intros s2 Hs2; [exact Hs2|]. cbn [props_list]. auto.
  - rewrite props_AList. revert s Hs. induction IH as [|y l Hy _ IH]; intros s Hs; [exact Hs|]. cbn [props_list]. auto.
  - rewrite props_AMap. revert s Hs. induction IH as [|[k v] l [Hk Hv] _ IH]; intros s Hs; [exact Hs|]. cbn [props_entries]. auto.
  - rewrite props_AStruct. revert s Hs. induction IH as [|[k v] l Hv _ IH]; intros s Hs; [exact Hs|]. cbn [props_fields]. auto.
  - cbn [props]. auto 10.
Qed.
Lemma list_keeps src x : forall l s, In x (fields_of src s) -> In x (fields_of src (props_list l s)).
Proof. induction l as [|a l IH]; intros s H; [exact H|]. cbn [props_list]. now apply IH, props_keeps. Qed.
Lemma sub_fields src x e y : sub e y -> (forall s, In x (fields_of src (props y s))) -> forall s, In x (fields_of src (props e s)).
Proof.
  intros Hs Hy s. destruct Hs as [e f|t f args|t f args y Hi|l y Hi|l k v Hi|l k v Hi|n l f v Hi|a b c d e p q|a b c d e p q|a b c d e p q|a b c d e p q|a b c d e p q].
  - cbn [props]. apply Hy.
  - rewrite props_call. apply list_keeps, Hy.
  - rewrite props_call. generalize (match t with Some x => props x (note_body t f args s) | None => set_path [] (note_body t f args s) end) as s2.
    induction args as [|a args IH]; intros s2; [easy|]. cbn [props_list]. destruct Hi as [->|Hi]; [apply list_keeps, Hy|now apply IH].
  - rewrite props_AList. revert s. induction l as [|a l IH]; intros s; [easy|]. cbn [props_list]. destruct Hi as [->|Hi]; [apply list_keeps, Hy|now apply IH].
  - rewrite props_AMap. assert (G : forall l s, In x (fields_of src s) -> In x (fields_of src (props_entries l s))).
    { clear. induction l as [|[k v] l IH]; intros s H; [exact H|]. cbn [props_entries]. now apply IH, props_keeps, props_keeps. }
    revert s. induction l as [|[k' v'] l IH]; intros s; [easy|]. cbn [props_entries]. destruct Hi as [[= -> ->]|Hi]; [apply G, props_keeps, Hy|now apply IH].
  - rewrite props_AMap. assert (G : forall l s, In x (fields_of src s) -> In x (fields_of src (props_entries l s))).
    { clear. induction l as [|[k v] l IH]; intros s H; [exact H|]. cbn [props_entries]. now apply IH, props_keeps, props_keeps. }
    revert s. induction l as [|[k' v'] l IH]; intros s; [easy|]. cbn [props_entries]. destruct Hi as [[= -> ->]|Hi]; [apply G, Hy|now apply IH].
  - rewrite props_AStruct. assert (G : forall l s, In x (fields_of src s) -> In x (fields_of src (props_fields l s))).
    { clear. induction l as [|[k v] l IH]; intros s H; [exact H|]. cbn [props_fields]. now apply IH, props_keeps. }
    revert s. induction l as [|[k' v'] l IH]; intros s; [easy|]. cbn [props_fields]. destruct Hi as [[= -> ->]|Hi]; [apply G, Hy|now apply IH].
  - cbn [props]. now repeat (apply Hy || apply props_keeps).
  - cbn [props]. now repeat (apply Hy || apply props_keeps).
  - cbn [props]. now repeat (apply Hy || apply props_keeps).
  - cbn [props]. now repeat (apply Hy || apply props_keeps).
  - cbn [props]. apply Hy.
Qed.
Lemma asks_fields src f e : asks src f e -> forall s, In f (fields_of src (props e s)).
Proof.
  induction 1 as [|e x Hs _ IH]; intros s; [|eapply sub_fields; eauto].
  destruct src; cbn; apply in_or_app; right; now left.
Qed.
Lemma body_map_all b : forall fields acc m, body_map fields b acc = Some m ->
  forall f, (In f fields -> exists w, aget mkey_eqb (KStr f) m = Some w /\ tget f (b_vals b) = Some w) /\ (~ In f fields -> aget mkey_eqb (KStr f) m = aget mkey_eqb (KStr f) acc).
Proof.
  induction fields as [|g fields IH]; intros acc m; cbn [body_map]; [intros [= ->]; intros f; split; [intros []|reflexivity]|].
  destruct (tget g (b_vals b)) as [v|] eqn:Hg; [|discriminate]. intros Hm f. destruct (IH _ _ Hm f) as [I1 I2]. split.
  - intros [->|Hf]; [|auto]. destruct (in_dec text_eq_dec f fields) as [Hi|Hi]; [auto|]. exists v. split; [|exact Hg]. rewrite (I2 Hi). apply (aget_aset_same mkey_eqb mkey_eqb_eq).
  - intros Hn. rewrite I2 by (intros Hi; apply Hn; now right). apply (aget_aset_other mkey_eqb mkey_eqb_eq). intros [= ->]. apply Hn. now left.
Qed.
Lemma eval_vars_body E a vs c vs' c' src f : eval_vars E (expr_of a) vs c = (RAvail vs', c') -> asks src f a ->
  exists w, body_seen src vs' f w /\ tget f (b_vals (src_body src c)) = Some w.
Proof.
  unfold eval_vars. intros He Ha. pose proof (asks_fields src f a Ha (mkPs [] [] [] [])) as Hf. pose proof (ensure_ext E (host_paths (expr_of a)) c) as H0.
  destruct (data_map E (expr_of a) _) as [[|m|] c2] eqn:H1; try discriminate. apply data_map_ext in H1. pose proof (ext_trans _ _ _ H0 H1) as H.
  destruct (request_value E (expr_of a) m c2) as [rv c3] eqn:H2. apply request_value_ext in H2. pose proof (ext_trans _ _ _ H H2) as H3. apply ext_unheard in H3 as [B1 B2].
  destruct (body_map (ex_resp (expr_of a)) (c_respb c3) []) as [rj|] eqn:Hr; [|discriminate].
  destruct (body_map (ex_req (expr_of a)) (c_reqb c3) []) as [qj|] eqn:Hq; [|discriminate]. injection He as <- <-. destruct src; cbn [fields_of src_body] in *.
  - destruct (body_map_all _ _ _ _ Hq f) as [I _]. destruct (I Hf) as (w & W1 & W2). exists w. split; [|now rewrite <- B1]. exists qj. split; [reflexivity|exact W1].
  - destruct (body_map_all _ _ _ _ Hr f) as [I _]. destruct (I Hf) as (w & W1 & W2). exists w. split; [|now rewrite <- B2]. exists rj. split; [reflexivity|exact W1].
Qed.

(** ** The facts about the states in which expressions are evaluated *)
Definition skips (E : env) (cfg : plugin_cfg) (s : action_set) (K : text -> ctx -> Prop) (path : text) (n : nat) (l : log) : Prop :=
  forall after now b past pr tm g sq x export, l = after ++ now -> n < length now -> has_action E cfg s b (mkT pr tm g sq (OpStore path x export)) -> completed b past now ->
    exists pe, parse_expr E pr = Some pe /\ eval_to E K b [] pe (VBool false) (EvEval b :: past).
Record facts (E : env) (cfg : plugin_cfg) (s : action_set) (K : text -> ctx -> Prop) (id : text) (c0 : ctx) : Prop := {
  fs_traced : traced E c0; fs_hcache : hcache E c0;
  fs_dup : NoDup (map fst (c_vals c0));
  fs_vals : forall path, match tget path (c_vals c0) with
    | Some v => exists e0 after now b past pr tm g sq y export pe ye,
        c_log c0 = (e0 :: after) ++ now /\ has_action E cfg s b (mkT pr tm g sq (OpStore path y export)) /\ completed b past now /\
        parse_expr E pr = Some pe /\ parse_expr E y = Some ye /\ eval_to E K b [] pe (VBool true) (EvEval b :: past) /\ eval_to E K b [pe] ye v (EvEval b :: past) /\
        skips E cfg s K path (length now) (c_log c0)
    | None => skips E cfg s K path 0 (c_log c0)
    end;
  fs_res : forall path, In path (c_res c0) -> stores E cfg s path;
  fs_names : forall n y, has_action E cfg s id y ->
    match tget n (scope_vars id c0) with
    | Some v => exists b x, answers E cfg s (c_log c0) id y b x n v /\ forall b' x' v', answers E cfg s (c_log c0) id y b' x' n v' -> within b' x' b x
    | None => forall b x v, ~ answers E cfg s (c_log c0) id y b x n v
    end;
  fs_bodies : bodies_ok E c0 }.

(** the expressions of [pre] and [e] are those of the action [id] *)
Definition own (E : env) (cfg : plugin_cfg) (s : action_set) (id : text) (l : list expr) : Prop :=
  forall e, In e l -> forall y, has_action E cfg s id y -> exists x, In x (texts y) /\ parse_expr E x = Some e.
Lemma own_clean E cfg s id l y e : own E cfg s id l -> has_action E cfg s id y -> clean_action E y -> In e l -> cleaned E e.
Proof. intros Ho Hy Hc He. destruct (Ho e He y Hy) as (x & H1 & H2). exists x. split; [exact H2|]. eapply Hc; eauto. Qed.
Lemma bindable_prefix t q more : bindable (t :: q ++ more) -> (t <> tx "request" \/ q <> []) -> bindable (t :: q).
Proof.
  intros [H1 H2] Hq. split; [exact H1|]. destruct H2 as [H2|[H2|[-> H2]]]; [now left|right; now left|]. right. right. split; [reflexivity|].
  destruct q as [|f q]; [destruct Hq; easy|exact H2].
Qed.
Lemma joined_head t q : joined (t :: q) = t \/ exists r, joined (t :: q) = t ++ dot :: r.
Proof. destruct q as [|u q]; [now left|]. right. now exists (joined (u :: q)). Qed.
Lemma joined_one : forall q t, headed q -> Forall (fun x => ~ In dot x) [t] -> joined q = t -> q = [t].
Proof.
  intros [|a q] t Hq Ht H; [easy|]. destruct q as [|b q]; [cbn in H; now subst|]. exfalso. inversion Ht as [|? ? Hd _]; subst. apply Hd.
  change (joined (a :: b :: q)) with (a ++ dot :: joined (b :: q)). apply in_or_app. right. now left.
Qed.

Lemma value_told E cfg s (K : text -> ctx -> Prop) : (forall id c0, K id c0 -> facts E cfg s K id c0) ->
  forall len id pre e v l x, length l < len -> eval_to E K id pre e v l -> parse_expr E x = Some e -> own E cfg s id (e :: pre) -> evaluates E cfg s id x v l.
Proof.
  intros HF. induction len as [|len IH]; intros id pre e v l x Hlen (c0 & c & vs0 & vs & c' & HK & Hl & Hi & He & Hv) Hx Ho; [lia|].
  pose proof (HF _ _ HK) as [F1 F2 F0 F3 F4 F5 F6]. pose proof (incoming_near _ _ _ _ _ _ Hi) as Hn. pose proof Hn as ((N1 & N2 & N3 & N4) & _ & _ & N5).
  assert (Hex : e = expr_of (ex_ast e)) by (eapply parsed_of; eauto).
  assert (He' : eval_vars E (expr_of (ex_ast e)) vs0 c = (RAvail vs, c')) by now rewrite <- Hex.
  (* stored values *)
  assert (Hown : forall b pr tm g sq y ex pe, has_action E cfg s b (mkT pr tm g sq (OpStore y ex pe)) -> forall l0, (forall e1, In e1 l0 -> exists x, In x (texts (mkT pr tm g sq (OpStore y ex pe))) /\ parse_expr E x = Some e1) -> own E cfg s b l0).
  { intros b pr tm g sq y ex pe (svs & S1 & S2) l0 H0 e1 He1 y' (svs' & S3 & S4). assert (svs' = svs) as -> by congruence. rewrite (configured_unique _ _ _ _ _ _ S4 S2). now apply H0. }
  assert (Hshort : forall after now b past, l = after ++ now -> completed b past now -> length (EvEval b :: past) < len).
  { intros after now b past -> (e1 & mid & -> & _). cbn [length] in *. rewrite app_length in Hlen. cbn [length] in Hlen. rewrite app_length in Hlen. cbn [length] in Hlen. lia. }
  assert (HSk : forall path n, skips E cfg s K path n l -> skipped E cfg s path n l).
  { intros path n H. constructor. intros after now b past pr tm g sq y export H1 H2 H3 H4. destruct (H _ _ _ _ _ _ _ _ _ _ H1 H2 H3 H4) as (pe & P1 & P2).
    eapply IH; [eapply Hshort; eauto|exact P2|exact P1|]. eapply Hown; [exact H3|]. intros e1 [<-|[]]. exists pr. split; [now left|exact P1]. }
  assert (HN : forall path w, tget path (c_vals c) = Some w -> newest E cfg s path w l).
  { intros path w Hw. rewrite N2 in Hw. specialize (F3 path). rewrite Hw in F3. destruct F3 as (e0 & after & now & b & past & pr & tm & g & sq & y & export & pe & ye & L1 & L2 & L0 & L3 & L4 & L5 & L6 & L7).
    rewrite Hl in L1, L7. apply HSk in L7. pose proof (Hshort _ _ _ _ L1 L0) as Hb. rewrite L1 in L7 |- *.
    eapply nw_stored; [exact L2|exact L0| | |exact L7].
    - eapply IH; [exact Hb|exact L5|exact L3|]. eapply Hown; [exact L2|]. intros e1 [<-|[]]. exists pr. split; [now left|exact L3].
    - eapply IH; [exact Hb|exact L6|exact L4|]. eapply Hown; [exact L2|]. intros e1 [<-|[<-|[]]]; [exists y; split; [right; now left|exact L4]|exists pr; split; [now left|exact L3]]. }
  assert (HS : forall q w, tget (joined q) (c_vals c) = Some w -> known E cfg s q w l) by (intros q w Hw; now apply kn_stored, HN).
  (* replies *)
  assert (HR : forall n, ~ In n taken -> tget n (c_vals c0) = None -> ~ root_known c0 n -> reply_named E cfg s l id n vs).
  { intros n T1 T2 T3 y Hy Hcl. destruct (own_clean _ _ _ _ _ _ e Ho Hy Hcl (or_introl eq_refl)) as (_ & _ & Hc).
    assert (tget n vs = tget n (scope_vars id c0)) as ->.
    { rewrite (name_kept E (ex_ast e) vs0 c vs c' n Hc He' T1); [|now rewrite N2|now rewrite (root_known_near _ _ _ _ Hn)].
      eapply incoming_name; eauto. intros e1 He1. eapply own_clean; [exact Ho|exact Hy|exact Hcl|now right]. }
    rewrite <- Hl. now apply F5. }
  eapply ev_value; [exact Hx|exact Hv| | | |].
  - intros Hc Ht p Hm Hb Hreq. assert (Hcol : clean (ex_ast e)) by exact Hc.
    assert (Hg : is_grpc_path p = false).
    { destruct p as [|t [|f p]]; try reflexivity. cbn [is_grpc_path]. destruct (text_eqb t (tx "request")) eqn:E1; [|reflexivity]. destruct (text_eqb f (tx "grpc")) eqn:E2; [|reflexivity].
      apply text_eqb_eq in E1 as ->. apply text_eqb_eq in E2 as ->. exfalso. destruct Hb as [_ [Hb|[[Hb|[Hb|[Hb|[]]]]|[_ Hb]]]]; try discriminate Hb. now apply Hb. }
    assert (Hp : In p (collected (ex_ast e))) by now apply expr_paths.
    destruct (eval_vars_all _ _ _ _ _ _ Hc He') as [[_ (m & rv & Hvo)] _].
    destruct p as [|t p]; [easy|]. cbn [hd] in *. destruct (known_root c [] t) eqn:Hkr.
    + apply known_root_spec in Hkr. left.
      destruct (decided_somewhere E c _ _ Hp (mentions_nonempty _ _ Hm) Hkr) as (q & more & r & Hpq & Hd).
      destruct (vo_look _ _ _ _ _ _ _ Hvo _ _ Hd) as (w & -> & Hw). pose proof Hd as (D1 & _ & _ & _ & D5).
      destruct q as [|t' q]; [easy|]. injection Hpq as <- ->.
      assert (Hbq : t <> tx "request" \/ q <> []).
      { destruct (text_eq_dec t (tx "request")) as [->|]; [|now left]. right. intros ->. destruct D5 as [(v0 & D5 & _)|[(_ & _ & D5)|(_ & _ & D6 & _)]]; [|discriminate|].
        - rewrite N2 in D5. cbn [joined] in D5. specialize (F3 (tx "request")). rewrite D5 in F3. destruct F3 as (e0 & after & now & b & past & pr & tm & g & sq & y & export & pe & ye & _ & L2 & _). apply (Hreq eq_refl). now exists b, pr, tm, g, sq, y, export.
        - apply (collected_clean _ _ Hc) in D6 as [(a1 & b1 & q1 & [=]) _]. }
      exists (t :: q), more, w. split; [reflexivity|]. split; [eapply vlook_sees; [exact Hvo| |exact Hw]; eapply bindable_prefix; eauto|].
      destruct D5 as [(v0 & D5 & [= ->])|[(_ & _ & D5)|(_ & _ & D6 & _ & D7)]]; [now apply HS|discriminate|].
      assert (Hpl : Prop_Paths.plain (t :: q)).
      { apply (collected_clean _ _ Hc) in D6 as [_ D6]. rewrite Forall_forall in D6. split; [easy|]. intros y Hy. now apply D6. }
      destruct (host_read_supplied E c (t :: q) w) as (cv & S1 & S2); [now apply (traced_near E c0)|now apply (hcache_near E c0)|exact Hpl|now symmetry|].
      eapply kn_host; [|exact S2]. now rewrite <- Hl, <- N1.
    + assert (Hnr : ~ root_known c t) by (rewrite <- known_root_spec; congruence).
      assert (Hnh : is_host_root t = false) by (destruct (is_host_root t) eqn:Hh; [exfalso; apply Hnr; now left|reflexivity]).
      destruct (tget t (c_vals c)) as [w|] eqn:Hw.
      * left. exists [t], p, w. split; [reflexivity|].
        assert (Hd : decided E c (collected (ex_ast e)) [t] (RAvail w)).
        { split; [easy|]. split; [now exists p|]. split; [intros q' Hq'; exfalso; apply on_way_len in Hq' as Hq2; destruct Hq' as [Hq' _]; destruct q'; [easy|cbn in Hq2; lia]|].
          split; [easy|]. left. now exists w. }
        destruct (vo_look _ _ _ _ _ _ _ Hvo _ _ Hd) as (w' & [= <-] & Hl').
        split; [|now apply HS]. eapply vlook_sees; [exact Hvo| |exact Hl']. split; [apply Hb|now left].
      * right. split; [exact Hnh|]. destruct (text_eqb t (tx "auth")) eqn:Hau.
        -- apply text_eqb_eq in Hau as ->. assert (Hmg : mget (tx "auth") m = None).
           { destruct (mget (tx "auth") m) as [w|] eqn:Hm'; [|reflexivity]. exfalso. unfold mget in Hm'. apply (aget_In mkey_eqb mkey_eqb_eq) in Hm'.
             destruct (vo_keys _ _ _ _ _ _ _ Hvo _ _ Hm') as (t' & Ht' & _ & H). assert (t' = tx "auth") as -> by congruence. destruct H as [H|H]; contradiction. }
           rewrite (vars_get _ _ _ _ _ _ _ (tx "auth") Hvo eq_refl (or_intror Hw)), Hmg. reflexivity.
        -- apply HR; [|now rewrite <- N2|now rewrite <- (root_known_near _ _ _ _ Hn)].
           destruct Hb as [Hj _]. intros [<-|[<-|[<-|[<-|[<-|[<-|[<-|[]]]]]]]]; try discriminate Hnh; [now rewrite text_eqb_refl in Hau|discriminate Hj|discriminate Hj].
  - intros n T1 T2 T3 T4. apply HR; [exact T1| |].
    + destruct (tget n (c_vals c0)) as [w|] eqn:Hw; [|reflexivity]. exfalso. specialize (F3 n). rewrite Hw in F3. destruct F3 as (e0 & after & now & b & past & pr & tm & g & sq & y & export & pe & ye & _ & L2 & _).
      destruct (T4 n) as [T _]; [now exists b, pr, tm, g, sq, y, export|easy].
    + intros [R|[(p & w & R1 & r & R2)|(p & R1 & r & R2)]]; [congruence| |].
      * destruct (tget p (c_vals c0)) as [w'|] eqn:Hw.
        -- specialize (F3 p). rewrite Hw in F3. destruct F3 as (e0 & after & now & b & past & pr & tm & g & sq & y & export & pe & ye & _ & L2 & _).
           destruct (T4 p) as [_ T]; [now exists b, pr, tm, g, sq, y, export|]. now apply (T r).
        -- apply (aget_None text_eqb text_eqb_eq) in Hw. apply Hw. apply in_map_iff. now exists (p, w).
      * destruct (T4 p (F4 _ R1)) as [_ T]. now apply (T r).
  - intros src f Ha. destruct (eval_vars_body _ _ _ _ _ _ _ _ He' Ha) as (w & W1 & W2). exists w. split; [exact W1|]. rewrite <- Hl, <- N1. now apply (bo_vals _ _ (proj2 (N5 F6))).
  - intros Hc n D1 D2 D3. specialize (F3 n) as F3n. destruct (tget n (c_vals c0)) as [w|] eqn:Hw.
    + left. exists w. rewrite <- N2 in Hw. split; [|now apply HN]. eapply C32_values_stored_under_a_name_are_seen_partial; eauto. now rewrite N2.
    + right. apply HSk. now rewrite <- Hl.
Qed.

(** ** The facts hold *)
Fixpoint path_node t {struct t} : forall path, In path (t_paths t) -> exists a pr ex export tm, In (NStore a pr ex path export tm) (nodes t).
Proof.
  assert (G : forall rs path, In path ((fix go l := match l with [] => [] | r :: l' => t_paths r ++ go l' end) rs) ->
    exists a pr ex export tm, In (NStore a pr ex path export tm) ((fix go l := match l with [] => [] | r :: l' => nodes r ++ go l' end) rs)).
  { induction rs as [|r rs IH]; intros path; [intros []|]. intros Hi. apply in_app_or in Hi as [Hi|Hi].
    - destruct (path_node r path Hi) as (a & pr & ex & export & tm & H). exists a, pr, ex, export, tm. apply in_or_app. now left.
    - destruct (IH path Hi) as (a & pr & ex & export & tm & H). exists a, pr, ex, export, tm. apply in_or_app. now right. }
  destruct t; intros path0 Hi; try (now destruct Hi).
  - destruct (G _ _ Hi) as (a & pr & ex & export & tm & H). exists a, pr, ex, export, tm. right. now right.
  - destruct (G _ _ Hi) as (a & pr & ex & export & tm & H). exists a, pr, ex, export, tm. now right.
  - exact (path_node t path0 Hi).
  - exact (path_node t path0 Hi).
  - destruct Hi as [<-|[]]. repeat eexists. now left.
Qed.
Lemma R_served E cfg fa s p : serves E cfg fa s -> build E fa (ctx0 [EvReqHeaders]) = BOk p -> R [] (p_emit (EvMetric MHits) p).
Proof.
  intros (Hin & svs & bp & c & Hsv & Hc & Hsel) Hb. pose proof (build_spec E fa (ctx0 [EvReqHeaders])) as Hsp. rewrite Hb in Hsp.
  destruct Hsp as (b & c1 & tds & Hs & Ht & Hp & _). rewrite Hsel in Hs. injection Hs as <- <-.
  unfold to_tasks in Ht. set (c2 := snd (read_headers E p_req_headers c)) in *.
  assert (Hx : c_res c2 = []).
  { unfold c2. destruct (read_headers E p_req_headers c) as [r c3] eqn:Hr. apply read_headers_ext, ext_keeps in Hr as (Hr & _). apply select_ext, ext_keeps in Hsel as (Hsel & _). cbn in *. congruence. }
  assert (Hd : p_def p = []) by (rewrite Hp; reflexivity).
  assert (Hr : Permutation (c_res (p_ctx p)) (ts_paths (p_queue p) ++ c_res c2)).
  { cbn [bp_actions] in Ht. apply actions_tasks_app in Ht as (ts1 & td1 & c3 & ts2 & td2 & K1 & K2 & ->).
    apply actions_tasks_res in K1; [|eapply compile_set_dyn; eauto]. apply dev_res in K2. rewrite K2, K1, ts_paths_app, app_assoc, (Permutation_app_comm (ts_paths ts2)). reflexivity. }
  constructor; unfold items, dts; cbn [p_emit p_with_ctx p_ctx p_def p_queue emit with_log c_res app]; rewrite Hd; [constructor|].
  cbn [map]. rewrite app_nil_r. rewrite Hx, app_nil_r in Hr. exact Hr.
Qed.
Lemma R_goes E cfg fa s ts p : serves E cfg fa s -> goes E fa ts p -> R ts p.
Proof. intros Hs. apply (reach_inv E fa R _ (R_finv E)). intros q Hb. eapply R_served; eauto. Qed.
Lemma store_node E cfg fa s p id pr ex path export tm : serves E cfg fa s -> build E fa (ctx0 [EvReqHeaders]) = BOk p ->
  In (NStore id pr ex path export tm) (nodess (p_queue p)) ->
  exists px tmx g sq y, has_action E cfg s id (mkT px tmx g sq (OpStore path y export)) /\ parse_expr E px = Some pr /\ parse_expr E y = Some ex.
Proof.
  intros Hs Hb Hi. destruct (serves_nodes _ _ _ _ _ Hs Hb _ Hi) as [(svs & a' & [px tmx g sq op] & Hsv & Hc & (pe & Hpe & Hds))|[]].
  destruct op as [| | |path' x export'|]; try easy. destruct Hds as (-> & -> & Hpx & -> & -> & _). exists px, tmx, g, sq, x. split; [now exists svs|now split].
Qed.
Lemma got_reply_eval E sv a v id l : ~ handled l -> got_reply E sv a v (EvEval id :: l) <-> got_reply E sv a v l.
Proof.
  intros Hh. split.
  - intros (after & now & past & k & sz & body & H1 & H2 & H3). destruct after as [|e after].
    + exfalso. cbn in H1. rewrite <- H1 in H2. injection H2 as _ ->. apply Hh. exact Logic.I.
    + injection H1 as _ ->. now exists after, now, past, k, sz, body.
  - intros (after & now & past & k & sz & body & -> & H). now exists (EvEval id :: after), now, past, k, sz, body.
Qed.
Lemma answers_eval E cfg s id l b y a x n v : ~ handled l -> answers E cfg s (EvEval id :: l) b y a x n v <-> answers E cfg s l b y a x n v.
Proof.
  intros Hh. unfold answers. split; intros (H1 & H2 & p & tm & g & sq & service & msg & r & rs & svs & k & sv & H3 & H4 & H5 & H6);
    (split; [exact H1|]; split; [exact H2|]; exists p, tm, g, sq, service, msg, r, rs, svs, k, sv; repeat split; try assumption; revert H6; now apply got_reply_eval).
Qed.
Lemma no_reply E cfg fa s ts p b y n : serves E cfg fa s -> goes E fa ts p -> has_action E cfg s b y -> tget n (scope_vars b (p_ctx p)) = None ->
  forall a x v, ~ answers E cfg s (c_log (p_ctx p)) b y a x n v.
Proof.
  intros Hs Hr Hy Hn a x v (Hx & Hw & pr & tm & g & sq & service & msg & r & rs & svs & k & sv & -> & Hsv & Hk & Hg).
  assert (Hv : visible b n v (p_ctx p)).
  { apply visible_bound. exists a. split; [now apply within_below in Hw|]. apply (bound_replies _ _ _ _ _ _ Hs Hr).
    exists (mkT pr tm g sq (OpGrpc n service msg (r :: rs))), pr, tm, g, sq, service, msg, r, rs, svs, k, sv. auto. }
  apply (aget_None text_eqb text_eqb_eq) in Hn. apply Hn. apply in_map_iff. now exists (n, v).
Qed.
Lemma action_node E cfg fa s pp svs a p tm g sq op : cfg_svs cfg = Some svs -> serves E cfg fa s -> build E fa (ctx0 [EvReqHeaders]) = BOk pp ->
  configured svs (cfg_rsrc E cfg) s a (mkT p tm g sq op) -> forall nd, In nd (nodess (p_queue pp)) -> n_id nd = a -> describes E svs a (mkT p tm g sq op) nd.
Proof.
  intros Hsv Hs Hb Hc nd Hi Hid. destruct (serves_nodes _ _ _ _ _ Hs Hb _ Hi) as [(svs' & a' & x & Hsv' & Hc' & Hd)|Hd].
  - assert (svs' = svs) as -> by congruence. assert (a' = a) as ->.
    { rewrite <- Hid. destruct x as [? ? ? ? o]. destruct Hd as (pe & _ & Hd). destruct o, nd; try easy; symmetry; apply Hd. }
    rewrite (configured_unique _ _ _ _ _ _ Hc Hc'). exact Hd.
  - exfalso. apply (configured_not_dev svs (cfg_rsrc E cfg) s (mkT p tm g sq op)). replace dev_id with a; [exact Hc|].
    rewrite <- Hid. destruct nd; cbn in Hd; cbn; try easy; apply Hd.
Qed.
(** the node of a configured store action *)
Lemma store_there E cfg fa s p b pr tm g sq path y export : serves E cfg fa s -> build E fa (ctx0 [EvReqHeaders]) = BOk p ->
  has_action E cfg s b (mkT pr tm g sq (OpStore path y export)) ->
  exists pe ye, parse_expr E pr = Some pe /\ parse_expr E y = Some ye /\ In (NStore b pe ye path export tm) (nodess (p_queue p)).
Proof.
  intros (Hin & svs & bp & c & H1 & H2 & H3) Hb (svs' & S1 & S2). assert (svs' = svs) as -> by congruence.
  destruct (built_all _ _ _ _ _ _ _ _ H1 H2 H3 Hb _ _ S2) as (nd & Hi & _ & Hd). destruct Hd as (pe & Hp & Hd). destruct nd; try easy. destruct Hd as (-> & -> & Hy & -> & -> & ->).
  exists pe. eexists. split; [exact Hp|]. split; [exact Hy|exact Hi].
Qed.
Lemma store_ids E cfg fa s p : serves E cfg fa s -> build E fa (ctx0 [EvReqHeaders]) = BOk p -> P_Last.ids_ok (nodess (p_queue p)).
Proof.
  intros Hs Hb b pb xb path eb tb Hi. destruct (store_node _ _ _ _ _ _ _ _ _ _ _ Hs Hb Hi) as (px & tmx & g & sq & y & (svs & Hsv & Hc) & Hp & Hy).
  assert (tmx = tb) as ->.
  { destruct (action_node _ _ _ _ _ _ _ _ _ _ _ _ Hsv Hs Hb Hc _ Hi eq_refl) as (pe & _ & Hd). symmetry. apply Hd. }
  assert (Hu : forall nd, In nd (nodess (p_queue p)) -> n_id nd = b -> nd = NStore b pb xb path eb tb).
  { intros nd Hn Hid. destruct (action_node _ _ _ _ _ _ _ _ _ _ _ _ Hsv Hs Hb Hc _ Hn Hid) as (pe & Hpe & Hd). destruct nd; try easy. destruct Hd as (-> & -> & Hx & -> & -> & ->). congruence. }
  split; [exact Hu|]. destruct (configured_number _ _ _ _ _ Hc) as (i & Hbel). split.
  - intros [(sv & var & gg & kids & Hk)|(k & Hk)]; [specialize (Hu _ Hk eq_refl); discriminate|]. eapply not_teardown; eauto.
  - intros ->. now apply tu_not_number in Hbel.
Qed.
Lemma latest_served E cfg fa s p0 ts p : serves E cfg fa s -> build E fa (ctx0 [EvReqHeaders]) = BOk p0 -> goes E fa ts p ->
  P_Last.latest E fa (nodess (p_queue p0)) (c_log (p_ctx p)) (c_vals (p_ctx p)).
Proof. intros Hs Hb. apply P_Last.latest_goes; [exact Hb|]. eapply store_ids; eauto. Qed.
Lemma facts_at_work E cfg fa s : serves E cfg fa s -> forall id c0, at_work E fa id c0 -> facts E cfg s (at_work E fa) id c0.
Proof.
  intros Hs id c0 (t & ts & p & Hg & Hid & ->). destruct (reach_build _ _ _ _ Hg) as (p0 & Hb). pose proof (served_V _ _ _ _ _ Hs Hb _ _ Hg) as HV. constructor.
  - apply traced_emit. eapply traced_goes; eauto.
  - apply hc_emit; [intros m (h & [=])|]. eapply hcache_goes; eauto.
  - exact (proj1 (latest_served _ _ _ _ _ _ _ Hs Hb Hg)).
  - cbn [emit with_log c_log c_vals]. destruct (latest_served _ _ _ _ _ _ _ Hs Hb Hg) as [_ HL].
    assert (HP : forall path n, P_Last.passed E fa (nodess (p_queue p0)) path n (c_log (p_ctx p)) -> skips E cfg s (at_work E fa) path n (EvEval id :: c_log (p_ctx p))).
    { intros path n H after now b past px tmx g sq y export Hl Hlen Hy He. destruct after as [|e1 after]; [exfalso; cbn in Hl; subst now; destruct He as (e & mid & [= <- _] & [H1|H1] & _); discriminate|].
      injection Hl as _ Hl. destruct (store_there _ _ _ _ _ _ _ _ _ _ _ _ _ Hs Hb Hy) as (pe & ye & Y1 & Y2 & Hi). exists pe. split; [exact Y1|].
      eapply (H after now b past pe ye export tmx); eauto. destruct He as (e & mid & -> & E1 & E2). exists e, mid. split; [reflexivity|]. split; [exact E1|]. rewrite Forall_forall. intros e' He'. specialize (E2 _ He'). now destruct e'. }
    intros path. specialize (HL path). destruct (tget path (c_vals (p_ctx p))) as [v|]; [|now apply HP].
    destruct HL as (after & now & a & past & pred & ex & export & tm & Hl & Hi & He & Hp & Hx & Hpa).
    destruct (store_node _ _ _ _ _ _ _ _ _ _ _ Hs Hb Hi) as (px & tmx & g & sq & y & H1 & H2 & H3).
    exists (EvEval id), after, now, a, past, px, tmx, g, sq, y, export, pred, ex. split; [now rewrite Hl|]. split; [exact H1|]. split.
    { destruct He as (e & mid & -> & E1 & E2). exists e, mid. split; [reflexivity|]. split; [exact E1|]. rewrite Forall_forall in E2. intros e' He'. specialize (E2 _ He'). destruct e'; try exact Logic.I. now apply E2. }
    repeat (split; [assumption|]). now apply HP.
  - intros path Hi. cbn in Hi. destruct (R_goes _ _ _ _ _ _ Hs Hg) as [_ Hr]. apply (Permutation_in _ Hr) in Hi. apply in_flat_map in Hi as (u & U1 & U2).
    apply path_node in U2 as (a & pr & ex & export & tm & U2).
    assert (Hn : In (NStore a pr ex path export tm) (nodess (p_queue p0))) by (apply (b_nodes _ _ _ _ _ (v_b _ _ _ _ _ _ HV)), in_flat_map; now exists u).
    destruct (store_node _ _ _ _ _ _ _ _ _ _ _ Hs Hb Hn) as (px & tmx & g & sq & y & H1 & _). now exists a, px, tmx, g, sq, y, export.
  - intros n y Hy. change (scope_vars id (emit (EvEval id) (p_ctx p))) with (scope_vars id (p_ctx p)). cbn [emit with_log c_log].
    pose proof (v_head _ _ _ _ _ _ HV) as Hh. destruct (tget n (scope_vars id (p_ctx p))) as [v|] eqn:Hn.
    + destruct (innermost_reply _ _ _ _ _ _ _ _ _ _ Hs Hg Hy Hn) as (b & x & H1 & H2). exists b, x. split; [now apply answers_eval|]. intros b' x' v' H. apply (H2 b' x' v'). revert H. now apply answers_eval.
    + intros b x v H. apply (proj1 (answers_eval E cfg s id _ _ _ _ _ _ _ Hh)) in H. revert H. eapply no_reply; eauto.
  - destruct (fed_goes _ _ _ _ Hg) as [[B1 B2] _]. split; [apply (k_emit _ heads_steady); [exact Logic.I|exact B1]|].
    eapply (bodies_app E [EvEval id]); [repeat constructor|reflexivity|reflexivity|reflexivity|exact B2].
Qed.
Lemma facts_routing E cfg s : forall id c0, routing id c0 -> facts E cfg s routing id c0.
Proof.
  intros id c0 [-> ->]. constructor.
  - intros k cv [=].
  - intros m. cbn. intros e [<-|[]] (h & [=]).
  - constructor.
  - intros path. cbn. intros after now b past pr tm g sq x export H _ _ (e & mid & -> & _). exfalso.
    assert (Hi : In (EvEval b) [EvReqHeaders]) by (rewrite H; apply in_or_app; right; right; apply in_or_app; right; now left). destruct Hi as [Hi|[]]. discriminate.
  - intros path [].
  - intros n y (svs & _ & Hc). exfalso. destruct (configured_number _ _ _ _ _ Hc) as (i & [H|(r & H)]).
    + symmetry in H. now apply nat_text_nonempty in H.
    + symmetry in H. now apply app_eq_nil in H.
  - split; [|constructor; [now intros []|intros [] f w [=]]]. split; [|discriminate]. intros m. cbn. intros e [<-|[]] (h & [=]).
Qed.

(** ** The meaning of evaluations *)
Lemma told E cfg fa s : serves E cfg fa s -> forall id pre e v l x,
  eval_to E (at_work E fa) id pre e v l -> parse_expr E x = Some e -> own E cfg s id (e :: pre) -> evaluates E cfg s id x v l.
Proof. intros Hs id pre e v l x. eapply value_told; [now apply facts_at_work|]. apply Nat.lt_succ_diag_r. Qed.
Lemma own_action E cfg s a y l : has_action E cfg s a y -> (forall e, In e l -> exists x, In x (texts y) /\ parse_expr E x = Some e) -> own E cfg s a l.
Proof.
  intros (svs & Hsv & Hy) H e He. destruct (H e He) as (x & H1 & H2). intros y' (svs' & Hsv' & Hy'). assert (svs' = svs) as -> by congruence.
  rewrite (configured_unique _ _ _ _ _ _ Hy' Hy). eauto.
Qed.
Lemma own_dev E cfg s l : own E cfg s dev_id l.
Proof. intros e He y (svs & _ & Hy). now apply configured_not_dev in Hy. Qed.
(** the predicate of an action, and its other expression *)
Lemma pred_told E cfg fa s a p tm g sq op pe b l : serves E cfg fa s -> has_action E cfg s a (mkT p tm g sq op) -> parse_expr E p = Some pe ->
  pval E (at_work E fa) a pe b l -> evaluates E cfg s a p (VBool b) l.
Proof.
  intros Hs Hy Hp H. eapply told; [exact Hs|exact H|exact Hp|]. eapply own_action; [exact Hy|]. intros e [<-|[]]. exists p. split; [now left|exact Hp].
Qed.
Lemma expr_told E cfg fa s a p tm g sq op pe x e v l : serves E cfg fa s -> has_action E cfg s a (mkT p tm g sq op) -> parse_expr E p = Some pe ->
  In x (texts (mkT p tm g sq op)) -> parse_expr E x = Some e -> eval_to E (at_work E fa) a [pe] e v l -> evaluates E cfg s a x v l.
Proof.
  intros Hs Hy Hp Hx He H. eapply told; [exact Hs|exact H|exact He|]. eapply own_action; [exact Hy|]. intros e' [<-|[<-|[]]]; [now exists x|]. exists p. split; [now left|exact Hp].
Qed.
Lemma message_told E cfg fa s a y x e v l : serves E cfg fa s -> has_action E cfg s a y ->
  In x (texts y) -> parse_expr E x = Some e -> eval_to E (at_work E fa) a [] e v l -> evaluates E cfg s a x v l.
Proof.
  intros Hs Hy Hx He H. eapply told; [exact Hs|exact H|exact He|]. eapply own_action; [exact Hy|]. intros e' [<-|[]]. now exists x.
Qed.
Lemma routing_told E cfg s p e b : parse_expr E p = Some e -> rval E e b -> evaluates E cfg s [] p (VBool b) [EvReqHeaders].
Proof.
  intros Hp (pre & H). eapply value_told; [apply facts_routing|apply Nat.lt_succ_diag_r|exact H|exact Hp|].
  intros e' _ y (svs & _ & Hc). exfalso. destruct (configured_number _ _ _ _ _ Hc) as (i & [H'|(r & H')]); symmetry in H'.
  - now apply nat_text_nonempty in H'.
  - now apply app_eq_nil in H'.
Qed.
Lemma evaluates_cel E cfg s a x v past : evaluates E cfg s a x v past -> exists e vs, parse_expr E x = Some e /\ o_cel E past (ex_ast e) vs = Some v.
Proof. intros H. inversion H; subst. eauto. Qed.
