(** C122: requests and the descriptors that the root context fetches meanwhile. *)
From Coq Require Import String Ascii List NArith ZArith Bool Lia Arith.
From Verif Require Conv Prop_Conv3.
From Verif Require Import Base Value Headers AttrPath Ctx CelProps CelEval Sse Body ValueBytes Tasks Exec Config Legacy Blueprint Factory Filter Deploy
  P_Frame P_Apply P_Exec P_Run P_Inv P_Ids P_Plan P_Deps P_Order P_Term P_Bar P_Cfg P_Hist P_Grow P_Wake P_Fail P_Head P_Told P_Eff P_Rid P_Scope Demo DemoCfg
  Prop_Headers Prop_Order Prop_Term Prop_Guard Prop_Wake Prop_Fail Prop_Know Prop_Eff Prop_Writes Prop_Call Prop_Deploy.
From Verif Require Import Root P_Root Prop_Root.
Import ListNotations.
Open Scope list_scope.

(** * Specifications *)
(** the host calls the plugin *)
Definition calls_in (e : ev) : Prop :=
  match e with EvReqHeaders | EvReqBody _ _ | EvRespHeaders | EvRespBody _ _ | EvGrpcResp _ _ _ => True | _ => False end.
(** In the history [h] of the instance, the moment [past] of the request [id] lies in the callback
    that the host makes after [h1]. *)
Definition during (R : renv) (E : env) (Es : N -> env) (h : list vin) (id : N) (past : log) (h1 : list vin) : Prop :=
  exists j h2 fa f evs, h = h1 ++ VHttp id j :: h2 /\ aget N.eqb id (v_ctxs (vrun R E Es h1)) = Some (fa, f) /\
    past = evs ++ ev_of j :: f_log f /\ forall e, In e evs -> ~ calls_in e.
(** the descriptors of the service [s] at the upstream [c] that the instance has after [h] *)
Definition held (R : renv) (E : env) (Es : N -> env) (h : list vin) (c s : text) : option text := get_pool (c, s) (ro_dm (v_root (vrun R E Es h))).
(** requests get descriptors from the root context of the instance, which [parse]s the bytes it has *)
Definition shared (R : renv) (E : env) (Es : N -> env) (parse : text -> option dpool) (D : protos) (h : list vin) (id : N) : Prop :=
  forall h1 past c s, during R E Es h id past h1 ->
    d_pool D past c s = match held R E Es h1 c s with Some b => parse b | None => None end.
(** the answer with [z] bytes to the fetch [t] has descriptors [b] for [k] *)
Definition brings (R : renv) (l : rlog) (t z : N) (k : dkey) (b : text) : Prop :=
  exists body ds, r_body R (RvAnswer t 0 z :: l) z = Some body /\ r_response R body = Some ds /\ In (k, b) ds.

(** * Callbacks *)
Lemma inner_calls e : inner e -> ~ calls_in e.
Proof. destruct e; cbn; auto. Qed.
Lemma inners evs : Forall inner evs -> forall e, In e evs -> ~ calls_in e.
Proof. intros H e He. apply inner_calls. rewrite Forall_forall in H. auto. Qed.
Lemma first_evs E fa : exists evs, f_log (run E fa []) = evs ++ [EvReqHeaders] /\ forall e, In e evs -> ~ calls_in e.
Proof.
  pose proof (headers_log E fa) as H. destruct (build E fa (ctx0 [EvReqHeaders])) as [p|c|c|c] eqn:Hb.
  - destruct (first_callback E fa p Hb) as (_ & _ & _ & ->). pose proof (build_spec E fa (ctx0 [EvReqHeaders])) as Hs. rewrite Hb in Hs.
    destruct (eval_added E (p_emit (EvMetric MHits) p)) as (evs & He & Hi).
    assert (Hp : c_log (p_ctx p) = [EvReqHeaders]) by (destruct Hs as (b & c1 & tds & _ & _ & _ & Hbl & _); apply Hbl).
    eexists (_ :: evs ++ [EvMetric MHits]).
    split; [rewrite He; cbn; rewrite Hp, <- app_assoc; reflexivity|].
    intros e [<-|Hx]; [easy|]. apply in_app_or in Hx as [Hx|[<-|[]]]; [now apply (inners _ Hi)|easy].
  - destruct H as (-> & _). exists [EvRet false; EvMetric MMisses]. split; [reflexivity|]. intros e [<-|[<-|[]]]; easy.
  - destruct H as (_ & ok & _ & ->). exists ((if ok then [EvRet false] else []) ++ [EvReply 500 [] (Some ise_body) ok; EvMetric MErrors]).
    split; [now rewrite <- app_assoc|]. intros e He. apply in_app_or in He as [He|[<-|[<-|[]]]]; try easy. destruct ok; [destruct He as [<-|[]]; easy|easy].
  - destruct H as (_ & _ & ->). now exists [].
Qed.
Lemma next_evs E fa f i : f_dead f = false -> i <> InReqHeaders ->
  exists evs, f_log (fstep E fa f i) = evs ++ ev_of i :: f_log f /\ forall e, In e evs -> ~ calls_in e.
Proof.
  intros Hd Hi. destruct (f_pipe f) as [p|] eqn:Hp.
  - destruct (callback E fa f i p Hd Hp Hi) as (_ & _ & _ & ->). destruct (callback_log E f i p Hd Hp Hi) as (evs & -> & Hf).
    rewrite !app_assoc. eexists. split; [reflexivity|]. intros e He. apply in_app_or in He as [He|He].
    + apply in_app_or in He as [He|He]; [|now apply (inners _ Hf)]. unfold answer in He. destruct i; cbn in He;
        try (destruct He as [<-|[]]; easy).
      destruct (P_Grow.kept _); match type of He with context [if ?b then _ else _] => destruct b end; try easy; destruct He as [<-|[]]; destruct (f_resp f); easy.
    + destruct i; cbn in He; try easy; [destruct He as [<-|[]]; easy|]. destruct (nget tok (p_def p)); [destruct He as [<-|[]]; easy|easy].
  - destruct (no_pipe_callback E fa f i Hd Hp Hi) as (_ & _ & _ & ->). destruct i; [easy|..]; cbn [ev_of].
    + exists [EvRet false]. split; [reflexivity|]. intros e [<-|[]]; easy.
    + exists [EvRet false; EvMetric MAllowed]. split; [reflexivity|]. intros e [<-|[<-|[]]]; easy.
    + exists [EvRet false]. split; [reflexivity|]. intros e [<-|[]]; easy.
    + exists []. now split.
Qed.
Lemma split_in {A} (x : A) past : forall a b c, a ++ x :: past = b ++ c -> (exists d, past = d ++ c /\ b = a ++ x :: d) \/ exists a', c = a' ++ x :: past.
Proof.
  induction a as [|y a IH]; intros [|z b] c H; cbn in H.
  - right. now exists [].
  - injection H as <- ->. left. now exists b.
  - right. now exists (y :: a).
  - injection H as <- H. destruct (IH b c H) as [(d & H1 & H2)|(a' & H1)]; [left; exists d; split; [exact H1|now rewrite H2]|right; eauto].
Qed.
(** every event of a request that is not itself a callback is in one *)
Lemma in_callback R E Es h0 id : forall h' fa f e past l,
  v_dead (vrun R E Es (h0 ++ VCreate id :: h')) = false -> ~ In (VCreate id) h' -> inputs id h' = InReqHeaders :: l -> later l ->
  aget N.eqb id (v_ctxs (vrun R E Es (h0 ++ VCreate id :: h'))) = Some (fa, f) -> occurs (f_log f) e past -> ~ calls_in e ->
  exists h1, during R E Es (h0 ++ VCreate id :: h') id past h1.
Proof.
  induction h' as [|i h' IH] using rev_ind; intros fa f e past l Hd Hn Hin Hl Hg Ho He; [discriminate|].
  rewrite app_comm_cons, app_assoc in *. pose proof (alive_before _ _ _ _ _ Hd) as Hd'.
  assert (Hn' : ~ In (VCreate id) h') by (intros H; apply Hn, in_or_app; now left).
  assert (Hwk : forall h1, during R E Es (h0 ++ VCreate id :: h') id past h1 -> during R E Es ((h0 ++ VCreate id :: h') ++ [i]) id past h1).
  { intros h1 (j & h2 & fa' & f' & evs & -> & H). exists j, (h2 ++ [i]), fa', f', evs. split; [rewrite <- app_assoc; reflexivity|exact H]. }
  assert (Hsame : inputs id h' = InReqHeaders :: l -> aget N.eqb id (v_ctxs (vrun R E Es (h0 ++ VCreate id :: h'))) = Some (fa, f) -> exists h1, during R E Es ((h0 ++ VCreate id :: h') ++ [i]) id past h1).
  { intros H1 H2. destruct (IH fa f e past l Hd' Hn' H1 Hl H2 Ho He) as (h1 & H). eauto. }
  rewrite inputs_app in Hin. pose proof Hg as Hg'. rewrite vrun_snoc in Hg. unfold vstep in Hg. rewrite Hd' in Hg.
  destruct i as [c| |t s z|id'|id' j]; cbn [v_ctxs inputs] in Hg, Hin; rewrite ?app_nil_r in Hin; auto.
  { rewrite (aget_aset_other N.eqb N_eqb_eq') in Hg; [auto|]. intros ->. apply Hn, in_or_app. right. now left. }
  destruct (N.eqb_spec id' id) as [->|Hne].
  2:{ rewrite app_nil_r in Hin. apply Hsame; [exact Hin|]. destruct (aget N.eqb id' _) as [[fa' f']|]; [|exact Hg]. cbn [v_ctxs] in Hg. now rewrite (aget_aset_other N.eqb N_eqb_eq') in Hg by congruence. }
  destruct (C63_requests_keep_their_configuration R E Es h0 id h' Hd' Hn') as (fa0 & _ & Hf0). rewrite Hf0 in Hg. cbn [v_ctxs] in Hg. rewrite (aget_aset_same N.eqb N_eqb_eq') in Hg. injection Hg as <- <-.
  assert (Hev : (exists evs, f_log (fstep (Es id) fa0 (frun (Es id) fa0 (inputs id h')) j) = evs ++ ev_of j :: f_log (frun (Es id) fa0 (inputs id h')) /\ forall e, In e evs -> ~ calls_in e) /\
    (inputs id h' = [] \/ exists l', inputs id h' = InReqHeaders :: l' /\ later l')).
  { destruct (inputs id h') as [|i0 l0] eqn:Hi.
    - cbn in Hin. injection Hin as -> <-. split; [exact (first_evs (Es id) fa0)|now left].
    - cbn in Hin. injection Hin as -> <-. split; [|right; exists l0; split; [reflexivity|intros H; apply Hl, in_or_app; now left]]. apply next_evs; [|intros ->; apply Hl, in_or_app; right; now left].
      destruct (f_dead (frun (Es id) fa0 (InReqHeaders :: l0))) eqn:Hdd; [|reflexivity]. exfalso.
      clear -Hf0 Hdd Hd Hd' . rewrite vrun_snoc in Hd. unfold vstep in Hd. rewrite Hd', Hf0 in Hd. cbn [v_dead] in Hd. unfold fstep in Hd. rewrite Hdd in Hd. congruence. }
  destruct Hev as ((evs & Hlog & Hevs) & Hh). rewrite Hlog in Ho. destruct Ho as (after & Ho). symmetry in Ho.
  destruct (split_in e past after evs _ Ho) as [(d & Hp & Hb)|(a' & Ha)].
  - exists (h0 ++ VCreate id :: h'), j, [], fa0, (frun (Es id) fa0 (inputs id h')), d. split; [reflexivity|]. split; [exact Hf0|]. split; [exact Hp|].
    intros x Hx. apply Hevs. rewrite Hb. apply in_or_app. right. now right.
  - destruct a' as [|y a']; cbn in Ha; injection Ha as Ha1 Ha2.
    + exfalso. apply He. rewrite <- Ha1. now destruct j.
    + destruct Hh as [Hh|(l' & Hh & Hl')].
      * rewrite Hh in Ha2. cbn in Ha2. now destruct a'.
      * destruct (IH fa0 _ e past l' Hd' Hn' Hh Hl' Hf0) as (h1 & H); [exists a'; exact Ha2|exact He|eauto].
Qed.
Lemma during_cons R E Es h id e past h1 : ~ calls_in e -> during R E Es h id past h1 -> during R E Es h id (e :: past) h1.
Proof.
  intros He (j & h2 & fa & f & evs & H1 & H2 & -> & H3). exists j, h2, fa, f, (e :: evs). split; [exact H1|]. split; [exact H2|]. split; [reflexivity|].
  intros x [<-|Hx]; auto.
Qed.
Lemma dispatched E fa l a cl r past : later l -> occurs (f_log (run E fa l)) (EvDispatch a cl r) past ->
  exists sv v, sv_upstream sv = cl_upstream cl /\ sv_service sv = cl_service cl /\ sv_method sv = cl_method cl /\ o_encode E past sv v = Some (cl_msg cl).
Proof.
  intros Hl Ho. destruct (pipe_or_not E fa) as [(pp & Hb)|Hn].
  2:{ exfalso. destruct (no_pipe_replies E fa l Hn Hl) as [H _]. rewrite occurs_hist in H. exact (H _ _ Ho). }
  destruct (F_log _ _ _ _ _ _ (F_run_filter E fa pp l Hb Hl)) as [H _]. rewrite occurs_hist in H. specialize (H _ _ Ho). cbn [eff] in H.
  destruct H as [_ (sv & var & g & kids & msg & pred & deps & v & _ & _ & _ & _ & He & A1 & A2 & A3 & _)]. exists sv, v. auto.
Qed.

Section Vm.
Context (R : renv) (E : env) (Ks : N -> host) (Ds : N -> protos) (Os : N -> env) (parse : text -> option dpool).
Let Es : N -> env := fun i => deployed (Ks i) (Ds i) (Os i).
(** a request begins after [h0], and its callbacks come in order *)
Definition in_order_of (id : N) (h' : list vin) : Prop :=
  ~ In (VCreate id) h' /\ exists l, inputs id h' = InReqHeaders :: l /\ later l.

Lemma pool_at h id h1 past sv p n o : shared R E Es parse (Ds id) h id -> during R E Es h id past h1 -> method_descriptor (Ds id) past sv = Some (p, (n, o)) ->
  exists b pool ms, held R E Es h1 (sv_upstream sv) (sv_service sv) = Some b /\ parse b = Some pool /\ dp_schema pool = p /\
    tget (sv_service sv) (dp_services pool) = Some ms /\ tget (sv_method sv) ms = Some (n, o).
Proof.
  intros Hs Hd Hm. apply method_spec in Hm as (pool & ms & Hp & H1 & H2 & H3). rewrite (Hs h1 past _ _ Hd) in Hp.
  destruct (held R E Es h1 (sv_upstream sv) (sv_service sv)) as [b|]; [|discriminate]. exists b, pool, ms. auto.
Qed.
Lemma whence h c s b : held R E Es h c s = Some b -> no_collision R (ro_log (v_root (vrun R E Es h))) ->
  builtin R s b \/ delivered R (ro_log (v_root (vrun R E Es h))) (c, s) b.
Proof. intros Hh Hc. exact (C62_descriptors_come_from_answers R E Es h (c, s) b Hc Hh). Qed.

(** C122 for calls: a call is made only when the instance has descriptors for the service, built in or
    delivered before, and carries the encoding by these of a message of the input type they give the method *)
Theorem C122_calls_follow_the_descriptors_at_hand : forall h0 id h' fa f a cl r past,
  let h := h0 ++ VCreate id :: h' in
  v_dead (vrun R E Es h) = false -> in_order_of id h' -> shared R E Es parse (Ds id) h id ->
  aget N.eqb id (v_ctxs (vrun R E Es h)) = Some (fa, f) -> occurs (f_log f) (EvDispatch a cl r) past ->
  exists h1 b pool ms n o v m,
    during R E Es h id past h1 /\ held R E Es h1 (cl_upstream cl) (cl_service cl) = Some b /\
    (no_collision R (ro_log (v_root (vrun R E Es h1))) ->
     builtin R (cl_service cl) b \/ delivered R (ro_log (v_root (vrun R E Es h1))) (cl_upstream cl, cl_service cl) b) /\
    parse b = Some pool /\ tget (cl_service cl) (dp_services pool) = Some ms /\ tget (cl_method cl) ms = Some (n, o) /\
    Conv.cel_to_message (d_conv (Ds id)) (dp_schema pool) n v = Some m /\ cl_msg cl = d_write (Ds id) (dp_schema pool) n m.
Proof.
  intros h0 id h' fa f a cl r past h Hd (Hn & l & Hi & Hl) Hs Hg Ho.
  destruct (in_callback R E Es h0 id h' fa f _ past l Hd Hn Hi Hl Hg Ho) as (h1 & Hd1); [easy|]. fold h in Hd1.
  destruct (C63_requests_keep_their_configuration R E Es h0 id h' Hd Hn) as (fa0 & _ & Hf0). fold h in Hf0. rewrite Hg in Hf0. injection Hf0 as -> ->. rewrite Hi in Ho.
  destruct (dispatched (Es id) fa0 l a cl r past Hl Ho) as (sv & v & A1 & A2 & A3 & He). change (encode_value (Ds id) past sv v = Some (cl_msg cl)) in He. unfold encode_value in He.
  destruct (method_descriptor (Ds id) past sv) as [[p [n o]]|] eqn:Hm; [|discriminate]. destruct (Conv.cel_to_message (d_conv (Ds id)) p n v) as [m|] eqn:Hc; [|discriminate]. injection He as He.
  destruct (pool_at h id h1 past sv p n o Hs Hd1 Hm) as (b & pool & ms & B1 & B2 & <- & B4 & B5). rewrite A1, A2, ?A3 in *.
  exists h1, b, pool, ms, n, o, v, m. split; [exact Hd1|]. split; [exact B1|]. split; [now apply whence|]. auto 6.
Qed.
(** C122 for answers: what reply actions see was read by the descriptors at hand when the answer came *)
Theorem C122_answers_follow_the_descriptors_at_hand : forall h0 id h' fa f sv a v,
  let h := h0 ++ VCreate id :: h' in
  v_dead (vrun R E Es h) = false -> in_order_of id h' -> shared R E Es parse (Ds id) h id ->
  aget N.eqb id (v_ctxs (vrun R E Es h)) = Some (fa, f) -> got_reply (Es id) sv a v (f_log f) ->
  exists h1 past k sz b pool ms n o body m,
    during R E Es h id (EvEval a :: EvHandle k a :: EvGrpcResp k 0 sz :: past) h1 /\
    held R E Es h1 (sv_upstream sv) (sv_service sv) = Some b /\ parse b = Some pool /\
    tget (sv_service sv) (dp_services pool) = Some ms /\ tget (sv_method sv) ms = Some (n, o) /\
    k_buffer (Ks id) (EvEval a :: EvHandle k a :: EvGrpcResp k 0 sz :: past) BGrpc 0 sz = HcOk (Some body) /\
    d_read (Ds id) (dp_schema pool) o body = Some m /\ Conv.message_to_cel (d_conv (Ds id)) (dp_schema pool) o m = Some v.
Proof.
  intros h0 id h' fa f sv a v h Hd (Hn & l & Hi & Hl) Hs Hg (after & now & past & k & sz & body & Hf & Hnow & _ & Hb & Hv).
  assert (Ho : occurs (f_log f) (EvEval a) (EvHandle k a :: EvGrpcResp k 0 sz :: past)) by (exists after; now rewrite Hf, Hnow).
  destruct (in_callback R E Es h0 id h' fa f _ _ l Hd Hn Hi Hl Hg Ho) as (h1 & Hd1); [easy|]. apply (during_cons _ _ _ _ _ (EvEval a)) in Hd1; [|easy]. fold h in Hd1. rewrite <- Hnow in Hd1.
  change (decode_value (Ds id) now sv body = Some v) in Hv. unfold decode_value in Hv.
  destruct (method_descriptor (Ds id) now sv) as [[p [n o]]|] eqn:Hm; [|discriminate]. destruct (d_read (Ds id) p o body) as [m|] eqn:Hr; [|discriminate].
  destruct (pool_at h id h1 now sv p n o Hs Hd1 Hm) as (b & pool & ms & B1 & B2 & <- & B4 & B5).
  change (get_grpc_response (Ks id) now sz = Some body) in Hb. unfold get_grpc_response in Hb. destruct (N.eqb sz 0); [discriminate|].
  destruct (k_buffer (Ks id) now BGrpc 0 sz) as [ob|] eqn:Hk; [|discriminate]. subst ob.
  exists h1, past, k, sz, b, pool, ms, n, o, body, m. rewrite <- Hnow. auto 9.
Qed.
End Vm.
Print Assumptions C122_calls_follow_the_descriptors_at_hand.
Print Assumptions C122_answers_follow_the_descriptors_at_hand.

(** * When descriptors change *)
Lemma pool_expect k b k0 m : get_pool k m = Some b -> get_pool k (add_expected k0 m) = Some b.
Proof. unfold get_pool. rewrite dget_expect. destruct (dget k (dm_desc m)); [auto|discriminate]. Qed.
Lemma pool_expects k b ks : forall m, get_pool k m = Some b -> get_pool k (fold_left (fun m k => add_expected k m) ks m) = Some b.
Proof. induction ks as [|k0 ks IH]; intros m H; [exact H|]. apply IH. now apply pool_expect. Qed.
Lemma pool_fetch R k b m l : NoDup (map fst (dm_desc m)) -> get_pool k m = Some b -> get_pool k (fst (fetch_missing R m l)) = Some b.
Proof.
  intros Hn H. unfold fetch_missing. destruct (get_missing m) as [|k0 ks0] eqn:Hm; [exact H|]. rewrite <- Hm. destruct (dm_service m) as [c|]; [|exact H].
  destruct (r_dispatch R l c (get_missing m)) as [tok|]; [|exact H]. unfold get_pool in *. cbn [fst with_desc dm_desc dm_pools]. rewrite dget_pend.
  destruct (existsb _ _) eqn:He; [|exact H]. apply existsb_key, In_missing in He; [|exact Hn]. rewrite He in H. discriminate.
Qed.
Lemma pool_take R k b ds : (forall b', ~ In (k, b') ds) -> forall m, get_pool k m = Some b -> get_pool k (fold_left (take_descriptor R) ds m) = Some b.
Proof.
  induction ds as [|[k0 b0] ds IH]; intros Hn m H; [exact H|]. cbn [fold_left]. apply IH; [intros b' Hb; apply (Hn b'); now right|].
  unfold take_descriptor. cbn [fst snd]. destruct (r_pool R b0 && r_has R b0 (snd k0)); [|exact H].
  assert (Hk : k <> k0) by (intros ->; apply (Hn b0); now left).
  assert (Hx : get_pool k (mkDm (or_insert N.eqb (r_hash R b0) b0 (dm_pools m)) (dm_embedded m) (dset k0 (DResolved (r_hash R b0)) (dm_desc m)) (dm_service m)) = Some b).
  { unfold get_pool in *. cbn [dm_desc dm_pools]. rewrite dget_dset_other by exact Hk. destruct (dget k (dm_desc m)) as [[h| |t|h]|]; try discriminate; now rewrite (or_insert_get N.eqb N_eqb_eq'), H. }
  unfold insert_pool_from_bytes. destruct (dget k0 (dm_desc m)) as [[h| |t|h]|]; auto.
Qed.
Lemma pool_reset t k b m : get_pool k m = Some b -> get_pool k (reset_pending t m) = Some b.
Proof.
  unfold get_pool, reset_pending. cbn [with_desc dm_desc dm_pools]. rewrite dget_reset. destruct (dget k (dm_desc m)) as [[h| |t'|h]|]; cbn; auto; discriminate.
Qed.
Lemma pool_configure R E c k b r : D R (rs r) -> get_pool k (ro_dm r) = Some b -> get_pool k (ro_dm (on_configure R E c r)) = Some b.
Proof.
  intros HD H. unfold on_configure, r_emit. destruct c as [cfg|]; [|exact H]. unfold process_config. cbn [ro_factory ro_dm ro_tick ro_log].
  apply (pool_expects k b (expected (pc_services cfg))) in H. set (l := RvConfigs :: RvConfigure (Some cfg) :: ro_log r).
  assert (Hm : D R (fold_left (fun m k => add_expected k m) (expected (pc_services cfg)) (ro_dm r), l)).
  { apply (D_star R (ro_dm r, l)); [apply (expect_star R cfg); [unfold l; cbn; auto|apply incl_refl]|]. unfold l. apply D_emit; [easy|]. now apply D_emit. }
  set (m := fold_left _ _ _) in *. destruct (try_from E cfg) as [fa|]; [|exact H]. set (m1 := set_descriptor_service _ m).
  assert (H1 : get_pool k m1 = Some b) by exact H. destruct (has_expected m1).
  - pose proof (pool_fetch R k b m1 l (d_nodup R _ Hm) H1) as H2. destruct (fetch_missing R m1 l) as [m2 l2]. now rewrite (proj2 (settick_factory R true (mkRoot fa m2 (ro_tick r) l2))).
  - now rewrite (proj2 (settick_factory R false (mkRoot fa m1 (ro_tick r) l))).
Qed.
(** C122, the last part: descriptors stay as they are while no answer brings others for the service *)
Theorem C122_descriptors_stay_until_replaced_partial : forall R E Es h1 h2 c s b,
  held R E Es h1 c s = Some b ->
  (forall ha t z hb b', h2 = ha ++ VAnswer t 0 z :: hb -> ~ brings R (ro_log (v_root (vrun R E Es (h1 ++ ha)))) t z (c, s) b') ->
  held R E Es (h1 ++ h2) c s = Some b.
Proof.
  intros R E Es h1 h2 c s b H. unfold held in *. induction h2 as [|i h2 IH] using rev_ind; intros Hn; [now rewrite app_nil_r|].
  assert (IH' : get_pool (c, s) (ro_dm (v_root (vrun R E Es (h1 ++ h2)))) = Some b).
  { apply IH. intros ha t z hb b' ->. apply (Hn ha t z (hb ++ [i])). now rewrite <- app_assoc. }
  rewrite app_assoc, vrun_snoc. pose proof (D_run R E Es (h1 ++ h2)) as HD. specialize (Hn h2). set (v := vrun R E Es (h1 ++ h2)) in *.
  unfold vstep. destruct (v_dead v); [exact IH'|]. destruct i as [cf| |t st z|id|id j]; cbn [v_root].
  - now apply pool_configure.
  - unfold on_tick, r_emit. cbn [ro_factory ro_dm ro_tick ro_log]. pose proof (pool_fetch R _ b _ (RvTick :: ro_log (v_root v)) (d_nodup R _ HD) IH') as H2.
    cbn [rs fst] in H2. destruct (fetch_missing R _ _) as [m l]. exact H2.
  - unfold on_answer, r_emit. cbn [with_dm ro_dm ro_log]. apply pool_reset. destruct (N.eqb_spec st 0) as [->|]; [|exact IH'].
    destruct (r_body R _ z) as [body|] eqn:Hb; [|exact IH']. unfold handle_response. destruct (existsb _ _); [|exact IH']. destruct (r_response R body) as [ds|] eqn:Hr; [|exact IH'].
    apply pool_take; [|exact IH']. intros b' Hi. apply (Hn t z [] b' eq_refl). now exists body, ds.
  - exact IH'.
  - destruct (aget N.eqb id (v_ctxs v)) as [[fa f]|]; exact IH'.
Qed.
Print Assumptions C122_descriptors_stay_until_replaced_partial.

Lemma take_brings R k b ds : In (k, b) ds -> r_pool R b = true -> r_has R b (snd k) = true -> forall m, usable k (fold_left (take_descriptor R) ds m).
Proof.
  intros Hi H1 H2. induction ds as [|d ds IH]; intros m; [destruct Hi|]. cbn [fold_left]. destruct Hi as [->|Hi]; [|now apply IH].
  apply (take_keeps R ds). unfold take_descriptor. cbn [fst snd]. rewrite H1, H2. cbn [andb]. unfold insert_pool_from_bytes, usable.
  destruct (dget k (dm_desc m)) as [[h| |t|h]|] eqn:Hk; cbn [dm_desc]; [exists h; auto|exists (r_hash R b); right; apply dget_dset_same..].
Qed.
(** A valid descriptor in the answer to a fetch that asked for it makes the service usable, for good. *)
Theorem C122_answered_services_can_be_called : forall R E Es h t z h2 c s b,
  let l := ro_log (v_root (vrun R E Es h)) in
  v_dead (vrun R E Es h) = false -> open_for l (c, s) t -> brings R l t z (c, s) b -> r_pool R b = true -> r_has R b s = true ->
  held R E Es (h ++ VAnswer t 0 z :: h2) c s <> None.
Proof.
  intros R E Es h t z h2 c s b l Hd Ho (body & ds & Hb & Hr & Hi) H1 H2. unfold held.
  change (h ++ VAnswer t 0 z :: h2) with (h ++ [VAnswer t 0 z] ++ h2). rewrite app_assoc. apply C60_resolved_services_stay_resolved.
  apply (usable_pool R _ _ (D_run R E Es _)). cbn [rs fst]. rewrite vrun_snoc. unfold vstep. rewrite Hd. cbn [v_root]. unfold on_answer, r_emit. cbn [with_dm ro_dm ro_log N.eqb].
  fold l. rewrite Hb. apply (reset_keeps t). unfold handle_response. pose proof (D_run R E Es h) as HD.
  destruct (d_open R _ HD (c, s) t Ho) as (st & Hs & Hst). cbn [rs fst] in Hs.
  destruct (existsb _ _) eqn:He; [rewrite Hr; now apply take_brings with (b := b)|].
  destruct Hst as [->|(h' & ->)]; [|exists h'; now right]. exfalso. assert (Hx : existsb (fun ks : dkey * dstate => is_pending t (snd ks)) (dm_desc (ro_dm (v_root (vrun R E Es h)))) = true).
  { apply existsb_exists. exists ((c, s), DPending t). split; [now apply (aget_In dkey_eqb dkey_eqb_eq)|apply N.eqb_refl]. }
  congruence.
Qed.
Print Assumptions C122_answered_services_can_be_called.

(** * Examples *)
(** of the method M two versions: the answer is a message M, or a timestamp *)
Definition pool_of (o : string) : dpool := mkPool Prop_Conv3.wkt [(tx "S", [(tx "M", (tx "M", tx o))])].
Definition parse_d (b : text) : option dpool :=
  if text_eqb b (tx "S1") then Some (pool_of "M") else if text_eqb b (tx "S2") then Some (pool_of "google.protobuf.Timestamp") else None.
Definition answered_in (l : log) : bool := existsb (fun e => match e with EvGrpcResp _ _ _ => true | _ => false end) l.
Definition Dv (old new : option dpool) : protos := mkProtos
  (fun l c s => if dkey_eqb (c, s) kS then (if answered_in l then new else old) else None) Prop_Conv3.Ct (fun _ _ _ => tx "wire") (fun _ _ _ => Some []).
Definition Od : env := e_parse Ed (fun s => if text_eqb s (tx "msg") then Some (ALit (VStruct (tx "M") req_m)) else parse_demo s).
(** the request 1 is made before the descriptors are there, 7 after; while its call is on the way others come *)
Definition Dvs (id : N) : protos := if N.eqb id 7 then Dv (Some (pool_of "M")) (Some (pool_of "google.protobuf.Timestamp")) else Dv None None.
Definition Esv (id : N) : env := deployed (Kd (tx "u")) (Dvs id) Od.
Definition ho : list vin := [VConfigure (Some (dcfg ex99)); VCreate 1; VHttp 1 InReqHeaders; VAnswer 2 0 1].
Definition hn : list vin := [VHttp 7 InReqHeaders; conf [svc_of "T"]; VAnswer 7 0 2; VHttp 7 (InGrpc 0 0 1)].
Lemma no_answer evs : (forall e, In e evs -> ~ calls_in e) -> answered_in evs = false.
Proof. intros H. unfold answered_in. induction evs as [|e evs IH]; [reflexivity|]. cbn. rewrite IH by (intros x Hx; apply H; now right). destruct e; try reflexivity. destruct (H (EvGrpcResp tok status size)); [now left|exact I]. Qed.
Lemma answered_app l1 l2 : answered_in (l1 ++ l2) = answered_in l1 || answered_in l2. Proof. apply existsb_app. Qed.
Ltac held_is := unfold held; match goal with |- context [ro_dm ?r] => let m := eval vm_compute in (ro_dm r) in change (ro_dm r) with m end;
  cbn [d_pool Dvs Dv N.eqb]; unfold get_pool; cbn [dm_desc dm_pools aget].
Lemma dv_shared : shared Rd Od Esv parse_d (Dvs 7) (ho ++ VCreate 7 :: hn) 7.
Proof.
  intros h1 past c s (j & h2 & fa & f & evs & Hh & Hg & -> & He).
  do 5 (destruct h1 as [|? h1]; [discriminate Hh|]; injection Hh as <- Hh).
  destruct h1 as [|? h1]; [injection Hh as <- Hh|].
  - assert (f_log f = []) as ->. { vm_compute in Hg. injection Hg as _ <-. reflexivity. }
    held_is. change (Dvs 7) with (Dv (Some (pool_of "M")) (Some (pool_of "google.protobuf.Timestamp"))). cbn [d_pool Dv].
    rewrite answered_app, (no_answer evs He). cbn [answered_in existsb ev_of orb].
    let k := eval vm_compute in kS in change kS with k. repeat (destruct (dkey_eqb (c, s) _); [reflexivity|]). reflexivity.
  - injection Hh as <- Hh. do 2 (destruct h1 as [|? h1]; [discriminate Hh|]; injection Hh as <- Hh). destruct h1 as [|? h1]; [injection Hh as <- Hh|injection Hh as <- Hh; destruct h1; discriminate Hh].
    held_is. change (Dvs 7) with (Dv (Some (pool_of "M")) (Some (pool_of "google.protobuf.Timestamp"))). cbn [d_pool Dv].
    rewrite answered_app. cbn [answered_in existsb ev_of orb]. rewrite orb_true_r.
    let k := eval vm_compute in kS in change kS with k. repeat (destruct (dkey_eqb (c, s) _); [reflexivity|]). reflexivity.
Qed.
Lemma dv_order : in_order_of 7 hn.
Proof. split; [intros [H|[H|[H|[H|[]]]]]; discriminate|]. exists [InGrpc 0 0 1]. split; [reflexivity|intros [H|[]]; discriminate]. Qed.
(** the request made before the descriptors came is rejected without a call; the later one makes its
    call by the descriptors delivered *)
Example C122_ex :
  v_dead (vrun Rd Od Esv (ho ++ VCreate 7 :: hn)) = false /\ in_order_of 7 hn /\ shared Rd Od Esv parse_d (Dvs 7) (ho ++ VCreate 7 :: hn) 7 /\
  (exists fa f, aget N.eqb 1%N (v_ctxs (vrun Rd Od Esv (ho ++ VCreate 7 :: hn))) = Some (fa, f) /\ In (EvReply 500 [] (Some ise_body) true) (f_log f) /\
     forall a cl r, ~ In (EvDispatch a cl r) (f_log f)) /\
  (exists fa f cl past, aget N.eqb 7%N (v_ctxs (vrun Rd Od Esv (ho ++ VCreate 7 :: hn))) = Some (fa, f) /\ occurs (f_log f) (EvDispatch (tx "0") cl (Some 0%N)) past) /\
  held Rd Od Esv ho (tx "up") (tx "S") = Some (tx "S1").
Proof.
  split; [vm_compute; reflexivity|]. split; [exact dv_order|]. split; [exact dv_shared|]. split; [|split; [|vm_compute; reflexivity]].
  - eexists _, _. split; [vm_compute; reflexivity|]. cbn [f_log]. split; [now right; left|]. intros a cl r H. repeat (destruct H as [H|H]; [discriminate H|]). destruct H.
  - eexists _, _, _, _. split; [vm_compute; reflexivity|]. cbn [f_log]. exists [EvResumeReq; EvDone (tx "0.0"); EvSetMap MReq [(tx "a", tx "b"); (tx "x-a", tx "1")] true; EvEval (tx "0.0"); EvDone (tx "0"); EvEval (tx "0"); EvHandle 0 (tx "0"); EvGrpcResp 0 0 1; EvRet true].
    vm_compute. reflexivity.
Qed.
(** meets the hypotheses of the theorem on answers to fetches, and the fetch before did not *)
Example C122_answered_ex : let h := firstn 3 ho in let l := ro_log (v_root (vrun Rd Od Esv h)) in
  v_dead (vrun Rd Od Esv h) = false /\ open_for l kS 2 /\ brings Rd l 2 1 kS (tx "S1") /\ r_pool Rd (tx "S1") = true /\ r_has Rd (tx "S1") (tx "S") = true /\
  held Rd Od Esv h (tx "up") (tx "S") = None.
Proof.
  cbv zeta. split; [vm_compute; reflexivity|]. split.
  { eexists [_], _, _, _. split; [vm_compute; reflexivity|]. split; [now left|]. intros s z [H|[]]. discriminate. }
  split; [|repeat split; vm_compute; reflexivity]. eexists _, _. split; [reflexivity|]. split; [vm_compute; reflexivity|now left].
Qed.
(** C122 is not true of answers: while the call is on the way, an answer to another fetch replaces the
    descriptors, and the service's answer is read as something it is not. *)
Theorem C122_answer_read_by_other_descriptors_refuted : exists R E Ks Ds Os parse h0 id h' fa f a cl k past sv v h1 h2 b1 b2 pool1 o1 body,
  let Es := fun i => deployed (Ks i) (Ds i) (Os i) in let h := h0 ++ VCreate id :: h' in
  v_dead (vrun R E Es h) = false /\ in_order_of id h' /\ shared R E Es parse (Ds id) h id /\
  aget N.eqb id (v_ctxs (vrun R E Es h)) = Some (fa, f) /\
  occurs (f_log f) (EvDispatch a cl (Some k)) past /\ during R E Es h id past h1 /\ held R E Es h1 (cl_upstream cl) (cl_service cl) = Some b1 /\
  got_reply (Es id) sv a v (f_log f) /\ sv_upstream sv = cl_upstream cl /\ sv_service sv = cl_service cl /\ sv_method sv = cl_method cl /\
  during R E Es h id (EvEval a :: EvHandle k a :: EvGrpcResp k 0 1 :: EvRet true :: EvDispatch a cl (Some k) :: past) h2 /\ held R E Es h2 (cl_upstream cl) (cl_service cl) = Some b2 /\ b1 <> b2 /\
  (** by the descriptors that the call was made by, the answer is another value *)
  parse b1 = Some pool1 /\ (exists ms n, tget (cl_service cl) (dp_services pool1) = Some ms /\ tget (cl_method cl) ms = Some (n, o1)) /\
  h_grpcresp (Es id) (EvEval a :: EvHandle k a :: EvGrpcResp k 0 1 :: EvRet true :: EvDispatch a cl (Some k) :: past) 1 = Some body /\
  exists m w, d_read (Ds id) (dp_schema pool1) o1 body = Some m /\ Conv.message_to_cel (d_conv (Ds id)) (dp_schema pool1) o1 m = Some w /\ w <> v.
Proof.
  exists Rd, Od, (fun _ => Kd (tx "u")), Dvs, (fun _ => Od), parse_d, ho, 7%N, hn. eexists _, _, (tx "0"), _, 0%N, [EvEval (tx "0"); EvMetric MHits; EvReqHeaders].
  exists (mkSvc (tx "up") (tx "S") (tx "M") 100 true). eexists _, (ho ++ [VCreate 7]), (ho ++ VCreate 7 :: firstn 3 hn), (tx "S1"), (tx "S2"), (pool_of "M"), (tx "M"), (tx "u"). cbv zeta.
  split; [vm_compute; reflexivity|]. split; [exact dv_order|]. split; [exact dv_shared|]. split; [vm_compute; reflexivity|].
  split. { exists [EvResumeReq; EvDone (tx "0.0"); EvSetMap MReq [(tx "a", tx "b"); (tx "x-a", tx "1")] true; EvEval (tx "0.0"); EvDone (tx "0"); EvEval (tx "0"); EvHandle 0 (tx "0"); EvGrpcResp 0 0 1; EvRet true]. cbn [f_log]. reflexivity. }
  split. { eexists InReqHeaders, _, _, _, [EvEval (tx "0"); EvMetric MHits]. split; [reflexivity|]. split; [vm_compute; reflexivity|]. split; [reflexivity|]. intros e [<-|[<-|[]]]; easy. }
  split; [vm_compute; reflexivity|].
  split. { eexists [EvResumeReq; EvDone (tx "0.0"); EvSetMap MReq [(tx "a", tx "b"); (tx "x-a", tx "1")] true; EvEval (tx "0.0"); EvDone (tx "0")], _, _, 0%N, 1%N, (tx "u").
    split; [cbn [f_log]; reflexivity|]. split; [reflexivity|]. split; [intros e He; repeat (destruct He as [<-|He]; [exact I|]); destruct He|]. split; vm_compute; reflexivity. }
  split; [reflexivity|]. split; [reflexivity|]. split; [reflexivity|].
  split. { eexists (InGrpc 0 0 1), _, _, _, [EvEval (tx "0"); EvHandle 0 (tx "0")]. split; [reflexivity|]. split; [vm_compute; reflexivity|]. split; [reflexivity|]. intros e [<-|[<-|[]]]; easy. }
  split; [vm_compute; reflexivity|]. split; [discriminate|]. split; [reflexivity|]. split; [do 2 eexists; split; reflexivity|]. split; [reflexivity|].
  eexists _, _. split; [reflexivity|]. split; [vm_compute; reflexivity|]. discriminate.
Qed.
Print Assumptions C122_answer_read_by_other_descriptors_refuted.
