(** Properties of the root context: descriptors and configurations (C60-C63, C82). *)
From Coq Require Import String List NArith Bool Ascii Lia.
From Verif Require Import Base Value Headers AttrPath Ctx CelProps CelEval Sse Body Tasks Exec Config Legacy Blueprint Factory Filter Root P_Plan P_Root Demo DemoCfg.
Import ListNotations.
Open Scope list_scope.

(** * Specification *)

(** The services whose descriptors are built in, with the bytes *)
Inductive builtin (R : renv) : text -> text -> Prop :=
| bi_ratelimit : builtin R (tx "envoy.service.ratelimit.v3.RateLimitService") (r_ratelimit R)
| bi_kuadrant : builtin R (tx "kuadrant.service.ratelimit.v1.RateLimitService") (r_ratelimit R)
| bi_auth : builtin R (tx "envoy.service.auth.v3.Authorization") (r_auth R).
(** the build embeds bytes that load *)
Definition embedded_ok (R : renv) : Prop := r_pool R (r_ratelimit R) = true /\ r_pool R (r_auth R) = true.

(** the gRPC service a configured service stands for *)
Definition grpc_name (sc : svc_cfg) : option text :=
  match sc_type sc with
  | SAuth => Some (tx "envoy.service.auth.v3.Authorization")
  | SRateLimit => Some (tx "envoy.service.ratelimit.v3.RateLimitService")
  | SRateLimitCheck | SRateLimitReport => Some (tx "kuadrant.service.ratelimit.v1.RateLimitService")
  | STracing => None
  | SDynamic => sc_grpc_service sc
  end.
(** the configuration has a service of that name behind that cluster *)
Definition names (cfg : plugin_cfg) (k : dkey) : Prop :=
  exists n sc, In (n, sc) (pc_services cfg) /\ sc_endpoint sc = fst k /\ grpc_name sc = Some (snd k).

(** no two of the descriptor sets seen have the same 64-bit hash *)
Definition no_collision (R : renv) (l : rlog) : Prop :=
  forall a b, seen R l a -> seen R l b -> r_hash R a = r_hash R b -> a = b.

(** the configuration in force after a history *)
Inductive in_force (E : env) : list vin -> factory -> Prop :=
| if_last h1 cfg h2 fa : try_from E cfg = Some fa ->
    (forall cfg', In (VConfigure (Some cfg')) h2 -> try_from E cfg' = None) -> in_force E (h1 ++ VConfigure (Some cfg) :: h2) fa
| if_none h : (forall cfg, In (VConfigure (Some cfg)) h -> try_from E cfg = None) -> in_force E h factory0.

(** the callbacks made on one context *)
Fixpoint inputs (id : N) (h : list vin) : list fin :=
  match h with
  | [] => []
  | VHttp id' i :: h' => if N.eqb id' id then i :: inputs id h' else inputs id h'
  | _ :: h' => inputs id h'
  end.

(** what the host was last told about the timer *)
Fixpoint ticking (l : rlog) : bool :=
  match l with [] => false | RvSetTick on true :: _ => on | _ :: l' => ticking l' end.

(** * Lemmas *)

Lemma emb_builtin R s h : tget s (dm_embedded (dman0 R)) = Some h -> exists b, builtin R s b /\ r_hash R b = h.
Proof.
  unfold dman0. destruct (r_pool R (r_auth R)), (r_pool R (r_ratelimit R)); cbn [register_embedded dm_embedded]; intros H.
  - destruct (text_eq_dec s auth_service) as [->|H1]; [rewrite (aget_aset_same text_eqb text_eqb_eq) in H; injection H as <-; eexists; split; [constructor|reflexivity]|].
    rewrite (aget_aset_other text_eqb text_eqb_eq) in H by easy.
    destruct (text_eq_dec s kuadrant_ratelimit_service) as [->|H2]; [rewrite (aget_aset_same text_eqb text_eqb_eq) in H; injection H as <-; eexists; split; [constructor|reflexivity]|].
    rewrite (aget_aset_other text_eqb text_eqb_eq) in H by easy. cbn [aset aget] in H. destruct (text_eqb s ratelimit_service) eqn:He; [|discriminate].
    injection H as <-. apply text_eqb_eq in He as ->. eexists; split; [constructor|reflexivity].
  - destruct (text_eq_dec s auth_service) as [->|H1]; [rewrite (aget_aset_same text_eqb text_eqb_eq) in H; injection H as <-; eexists; split; [constructor|reflexivity]|].
    rewrite (aget_aset_other text_eqb text_eqb_eq) in H by easy. discriminate.
  - destruct (text_eq_dec s kuadrant_ratelimit_service) as [->|H2]; [rewrite (aget_aset_same text_eqb text_eqb_eq) in H; injection H as <-; eexists; split; [constructor|reflexivity]|].
    rewrite (aget_aset_other text_eqb text_eqb_eq) in H by easy. cbn [aset aget] in H. destruct (text_eqb s ratelimit_service) eqn:He; [|discriminate].
    injection H as <-. apply text_eqb_eq in He as ->. eexists; split; [constructor|reflexivity].
  - discriminate.
Qed.
Lemma builtin_emb R s b : embedded_ok R -> builtin R s b -> tget s (dm_embedded (dman0 R)) = Some (r_hash R b).
Proof.
  intros [Hr Ha] Hb. unfold dman0. rewrite Hr, Ha. cbn [register_embedded dm_embedded]. destruct Hb.
  - rewrite !(aget_aset_other text_eqb text_eqb_eq) by discriminate. reflexivity.
  - rewrite (aget_aset_other text_eqb text_eqb_eq) by discriminate. apply (aget_aset_same text_eqb text_eqb_eq).
  - apply (aget_aset_same text_eqb text_eqb_eq).
Qed.
Lemma builtin_seen R l s b : builtin R s b -> seen R l b.
Proof. destruct 1; unfold seen; auto. Qed.

Lemma inst_key sc k s : inst_of sc = Some (IDyn k s) -> sv_upstream s = sc_endpoint sc /\ grpc_name sc = Some (sv_service s).
Proof.
  unfold inst_of, grpc_name. destruct (sc_type sc); intros H; try (injection H as <- <-; split; reflexivity); try discriminate.
  destruct (sc_grpc_service sc), (sc_grpc_method sc); try discriminate. injection H as <- <-. now split.
Qed.
Lemma inst_trace sc t : inst_of sc = Some (ITrace t) -> grpc_name sc = None.
Proof.
  unfold inst_of, grpc_name. destruct (sc_type sc); try discriminate; try easy. destruct (sc_grpc_service sc), (sc_grpc_method sc); discriminate.
Qed.
Lemma expected_names svs k : In k (expected svs) -> exists n sc, In (n, sc) svs /\ sc_endpoint sc = fst k /\ grpc_name sc = Some (snd k).
Proof.
  induction svs as [|[n sc] svs IH]; cbn; [easy|]. destruct (inst_of sc) as [[ki s|t]|] eqn:Hi; [| |easy].
  - intros [<-|H]; [exists n, sc; apply inst_key in Hi as [-> ->]; cbn; auto|]. destruct (IH H) as (n' & sc' & H1 & H2). exists n', sc'. auto.
  - intros H. destruct (IH H) as (n' & sc' & H1 & H2). exists n', sc'. auto.
Qed.
Lemma names_expected E cfg k : try_from E cfg <> None -> names cfg k -> In k (expected (pc_services cfg)).
Proof.
  intros Ht (n & sc & Hi & He & Hg). unfold try_from in Ht.
  destruct (map_opt _ (pc_services cfg)) as [svs|] eqn:Hm; [|easy]. clear Ht. revert svs Hm.
  induction (pc_services cfg) as [|[n' sc'] l IH]; [destruct Hi|]; intros svs Hm. cbn in Hm.
  destruct (inst_of sc') as [i|] eqn:Hs; [|discriminate]. cbn in Hm. destruct (map_opt _ l) as [bs|] eqn:Hm'; [|discriminate]. cbn. rewrite Hs.
  destruct Hi as [[= -> ->]|Hi].
  - destruct i as [ki s|t]; [|apply inst_trace in Hs; congruence]. left. apply inst_key in Hs as [H1 H2]. destruct k as [k1 k2]. cbn in *. congruence.
  - destruct i as [ki s|t]; [right|]; now apply (IH Hi bs).
Qed.

(** ** Persistence *)

Definition usable (k : dkey) (m : dman) : Prop := exists h, dget k (dm_desc m) = Some (DEmbedded h) \/ dget k (dm_desc m) = Some (DResolved h).

Lemma take_keeps R ds : forall m k, (forall h, dget k (dm_desc m) = Some (DEmbedded h) -> dget k (dm_desc (fold_left (take_descriptor R) ds m)) = Some (DEmbedded h)) /\
  (usable k m -> usable k (fold_left (take_descriptor R) ds m)) /\
  (dget k (dm_desc m) <> None -> dget k (dm_desc (fold_left (take_descriptor R) ds m)) <> None) /\
  ((forall h, dget k (dm_desc m) <> Some (DEmbedded h)) -> forall h, dget k (dm_desc (fold_left (take_descriptor R) ds m)) <> Some (DEmbedded h)) /\
  dm_service (fold_left (take_descriptor R) ds m) = dm_service m.
Proof.
  induction ds as [|[k0 b] ds IH]; intros m k; [cbn; auto|]. cbn [fold_left].
  destruct (IH (take_descriptor R m (k0, b)) k) as (A & B & C & C2 & C3).
  assert (Hs : (forall h, dget k (dm_desc m) = Some (DEmbedded h) -> dget k (dm_desc (take_descriptor R m (k0, b))) = Some (DEmbedded h)) /\
    (usable k m -> usable k (take_descriptor R m (k0, b))) /\
    (dget k (dm_desc m) <> None -> dget k (dm_desc (take_descriptor R m (k0, b))) <> None) /\
    ((forall h, dget k (dm_desc m) <> Some (DEmbedded h)) -> forall h, dget k (dm_desc (take_descriptor R m (k0, b))) <> Some (DEmbedded h)) /\
    dm_service (take_descriptor R m (k0, b)) = dm_service m).
  { unfold take_descriptor. cbn [fst snd]. destruct (r_pool R b && r_has R b (snd k0)); [|auto 6].
    unfold insert_pool_from_bytes. destruct (dget k0 (dm_desc m)) as [[h0| |t0|h0]|] eqn:H0; auto 6; cbn [dm_desc dm_service];
      (destruct (dkey_eq_dec k k0) as [->|Hn];
       [rewrite dget_dset_same; repeat split; try congruence; intros _; exists (r_hash R b); right; cbn [dm_desc]; apply dget_dset_same
       |unfold usable; cbn [dm_desc]; rewrite dget_dset_other by easy; auto 6]). }
  destruct Hs as (A' & B' & C' & C2' & C3'). repeat split; auto. congruence.
Qed.

Lemma reset_keeps t m k : (forall h, dget k (dm_desc m) = Some (DEmbedded h) -> dget k (dm_desc (reset_pending t m)) = Some (DEmbedded h)) /\
  (usable k m -> usable k (reset_pending t m)) /\ (dget k (dm_desc m) <> None -> dget k (dm_desc (reset_pending t m)) <> None) /\
  ((forall h, dget k (dm_desc m) <> Some (DEmbedded h)) -> forall h, dget k (dm_desc (reset_pending t m)) <> Some (DEmbedded h)).
Proof.
  unfold usable, reset_pending, with_desc. cbn [dm_desc]. rewrite dget_reset. repeat split.
  - intros h ->. reflexivity.
  - intros (h & [->| ->]); exists h; cbn; auto.
  - destruct (dget k (dm_desc m)); easy.
  - intros H h. destruct (dget k (dm_desc m)) as [[h0| |t0|h0]|]; cbn; try congruence. destruct (N.eqb t0 t); congruence.
Qed.

Lemma step_keeps R s s' k : D R s -> dstep R s s' ->
  (forall h, dget k (dm_desc (fst s)) = Some (DEmbedded h) -> dget k (dm_desc (fst s')) = Some (DEmbedded h)) /\
  (usable k (fst s) -> usable k (fst s')) /\ (dget k (dm_desc (fst s)) <> None -> dget k (dm_desc (fst s')) <> None) /\
  (dget k (dm_desc (fst s)) <> None -> (forall h, dget k (dm_desc (fst s)) <> Some (DEmbedded h)) -> forall h, dget k (dm_desc (fst s')) <> Some (DEmbedded h)).
Proof.
  intros HD. destruct 1 as [m l e He|m l k0 cfg Hc Hk|m l sv|m l|m l t st z]; cbn [fst snd] in *.
  - auto.
  - unfold usable. rewrite dget_expect. repeat split.
    + now intros h ->.
    + intros (h & [->| ->]); exists h; auto.
    + destruct (dget k (dm_desc m)); easy.
    + intros Hn H h. destruct (dget k (dm_desc m)); [apply H|easy].
  - auto.
  - unfold fetch_missing. destruct (get_missing m) as [|k1 ks1] eqn:Hm; [auto|]. rewrite <- Hm. destruct (dm_service m); [|auto].
    destruct (r_dispatch R l t (get_missing m)) as [tok|]; [|auto].
    unfold usable. cbn [fst with_desc dm_desc]. rewrite dget_pend. destruct (existsb (dkey_eqb k) (get_missing m)) eqn:He; [|auto].
    apply existsb_key, In_missing in He; [|apply (d_nodup R _ HD)]. rewrite He. repeat split; try easy. intros (h & [?|?]); discriminate.
  - assert (Hmid : forall m', (exists ds, m' = fold_left (take_descriptor R) ds m) -> forall k,
      (forall h, dget k (dm_desc m) = Some (DEmbedded h) -> dget k (dm_desc (reset_pending t m')) = Some (DEmbedded h)) /\
      (usable k m -> usable k (reset_pending t m')) /\ (dget k (dm_desc m) <> None -> dget k (dm_desc (reset_pending t m')) <> None) /\
      (dget k (dm_desc m) <> None -> (forall h, dget k (dm_desc m) <> Some (DEmbedded h)) -> forall h, dget k (dm_desc (reset_pending t m')) <> Some (DEmbedded h))).
    { intros m' [ds ->] k'. destruct (take_keeps R ds m k') as (A & B & C & C2 & _). destruct (reset_keeps t (fold_left (take_descriptor R) ds m) k') as (A' & B' & C' & C2').
      repeat split; auto. }
    apply Hmid. destruct (N.eqb st 0); [|now exists []]. destruct (r_body R _ z) as [b|]; [|now exists []].
    unfold handle_response. destruct (existsb _ _); [|now exists []]. destruct (r_response R b) as [ds|]; [now exists ds|now exists []].
Qed.

Lemma star_keeps R s s' k : dstar R s s' -> D R s ->
  (forall h, dget k (dm_desc (fst s)) = Some (DEmbedded h) -> dget k (dm_desc (fst s')) = Some (DEmbedded h)) /\
  (usable k (fst s) -> usable k (fst s')) /\ (dget k (dm_desc (fst s)) <> None -> dget k (dm_desc (fst s')) <> None) /\
  (dget k (dm_desc (fst s)) <> None -> (forall h, dget k (dm_desc (fst s)) <> Some (DEmbedded h)) -> forall h, dget k (dm_desc (fst s')) <> Some (DEmbedded h)).
Proof.
  induction 1 as [s|s s1 s2 H1 H2 IH]; intros HD; [auto|].
  destruct (step_keeps R s s1 k HD H1) as (A & B & C & C2). destruct (IH (D_step R s s1 H1 HD)) as (A' & B' & C' & C2'). repeat split; auto.
Qed.

Lemma usable_pool R s k : D R s -> (get_pool k (fst s) <> None <-> usable k (fst s)).
Proof.
  intros HD. unfold get_pool, usable. destruct (dget k (dm_desc (fst s))) as [[h| |t|h]|] eqn:Hk; split; try easy; try (intros (h' & [?|?]); discriminate).
  - intros _. exists h. now left.
  - intros _. pose proof (d_state R s HD k _ Hk) as Hs. cbn in Hs. rewrite (d_emb R s HD) in Hs. apply base_emb in Hs.
    destruct (aget N.eqb h (dm_pools (dman0 R))) as [b|] eqn:Hb; [|easy]. now rewrite (d_base R s HD h b Hb).
  - intros _. exists h. now right.
  - intros _. pose proof (d_state R s HD k _ Hk) as (b & _ & _ & H). exact H.
Qed.

Lemma dead_stays R E Es l : forall v, v_dead v = true -> fold_left (vstep R E Es) l v = v.
Proof. induction l as [|i l IH]; intros v H; cbn; [easy|]. assert (Hv : vstep R E Es v i = v) by (unfold vstep; now rewrite H). rewrite Hv. now apply IH. Qed.
Lemma alive_before R E Es l1 l2 : v_dead (vrun R E Es (l1 ++ l2)) = false -> v_dead (vrun R E Es l1) = false.
Proof. rewrite vrun_app. destruct (v_dead (vrun R E Es l1)) eqn:H; [|easy]. rewrite dead_stays by easy. congruence. Qed.

Lemma expect_after k ks : forall m, In k ks -> dget k (dm_desc (fold_left (fun m k => add_expected k m) ks m)) <> None.
Proof.
  assert (Hk : forall ks m, dget k (dm_desc m) <> None -> dget k (dm_desc (fold_left (fun m k => add_expected k m) ks m)) <> None).
  { clear. induction ks as [|k0 ks IH]; intros m Hm; cbn; [easy|]. apply IH. rewrite dget_expect. now destruct (dget k (dm_desc m)). }
  induction ks as [|k0 ks IH]; intros m Hi; [destruct Hi|]. cbn. destruct Hi as [->|Hi]; [|now apply IH].
  apply Hk. rewrite dget_expect, (proj2 (dkey_eqb_eq k k) eq_refl). now destruct (dget k (dm_desc m)).
Qed.

(** an accepted configuration registers the services it names *)
Lemma configured_known R E cfg k r : try_from E cfg <> None -> names cfg k -> D R (rs r) -> dget k (dm_desc (ro_dm (on_configure R E (Some cfg) r))) <> None.
Proof.
  intros Ht Hn HD. pose proof (names_expected E cfg k Ht Hn) as Hk. unfold on_configure, process_config, r_emit. cbn [ro_factory ro_dm ro_tick ro_log].
  destruct (try_from E cfg) as [fa|]; [|easy].
  set (m := fold_left _ _ _). assert (Hm : dget k (dm_desc m) <> None) by (apply expect_after, Hk).
  set (l := RvConfigs :: RvConfigure (Some cfg) :: ro_log r).
  assert (HDm : D R (m, l)).
  { apply (D_star R (ro_dm r, l)); [apply (expect_star R cfg); [unfold l; cbn; auto|apply incl_refl]|]. unfold l. apply D_emit; [easy|]. now apply D_emit. }
  set (m1 := set_descriptor_service _ m). assert (HD1 : D R (m1, l)) by now apply D_service.
  destruct (has_expected m1).
  - destruct (step_keeps R (m1, l) (fetch_missing R m1 l) k HD1 (ds_fetch R m1 l)) as (_ & _ & C & _).
    destruct (fetch_missing R m1 l) as [m2 l2]. rewrite (proj2 (settick_factory R true (mkRoot fa m2 (ro_tick r) l2))). apply C, Hm.
  - rewrite (proj2 (settick_factory R false (mkRoot fa m1 (ro_tick r) l))). apply Hm.
Qed.

Lemma known_at R E Es h1 cfg h2 k : v_dead (vrun R E Es h1) = false -> try_from E cfg <> None -> names cfg k ->
  dget k (dm_desc (ro_dm (v_root (vrun R E Es (h1 ++ VConfigure (Some cfg) :: h2))))) <> None.
Proof.
  intros Hd Ht Hn. change (h1 ++ VConfigure (Some cfg) :: h2) with (h1 ++ [VConfigure (Some cfg)] ++ h2). rewrite app_assoc, vrun_app.
  destruct (star_keeps R _ _ k (vsteps_star R E Es h2 (vrun R E Es (h1 ++ [VConfigure (Some cfg)]))) (D_run R E Es _)) as (_ & _ & C & _). apply C.
  cbn [rs fst]. rewrite vrun_snoc. unfold vstep. rewrite Hd. cbn [v_root]. apply configured_known; [easy|easy|]. apply D_run.
Qed.

(** * Descriptors *)

(** C62: a descriptor that is used is built in, or came with a successful answer to an
    outstanding fetch, decodes and has the service.  [no_collision] is about the 64-bit
    hashes of the descriptor sets seen by this instance. *)
Theorem C62_descriptors_come_from_answers R E Es h k b :
  let r := v_root (vrun R E Es h) in
  no_collision R (ro_log r) -> get_pool k (ro_dm r) = Some b -> builtin R (snd k) b \/ delivered R (ro_log r) k b.
Proof.
  intros r Hc. pose proof (D_run R E Es h) as HD. fold r in HD. unfold get_pool.
  destruct (dget k (dm_desc (ro_dm r))) as [[h0| |t|h0]|] eqn:Hk; try discriminate; intros Hp.
  - left. pose proof (d_state R _ HD k _ Hk) as Hs. cbn [state_ok rs fst] in Hs. pose proof (d_emb R _ HD) as He. cbn [rs fst] in He. rewrite He in Hs.
    apply emb_builtin in Hs as (b' & Hb & Hh). destruct (d_pools R _ HD h0 b Hp) as (H1 & _ & H2).
    assert (b = b') as -> by (apply Hc; [easy|now apply (builtin_seen R _ (snd k))|congruence]). easy.
  - right. destruct (d_state R _ HD k _ Hk) as (b' & Hh & Hd & _). destruct (d_pools R _ HD h0 b Hp) as (H1 & _ & H2).
    assert (b = b') as -> by (apply Hc; [easy|right; right; now exists k|congruence]). easy.
Qed.

(** C60, second half: a service that has a descriptor has one ever after *)
Theorem C60_resolved_services_stay_resolved R E Es h1 h2 k :
  get_pool k (ro_dm (v_root (vrun R E Es h1))) <> None -> get_pool k (ro_dm (v_root (vrun R E Es (h1 ++ h2)))) <> None.
Proof.
  intros H. rewrite vrun_app. pose proof (D_run R E Es h1) as HD. pose proof (vsteps_star R E Es h2 (vrun R E Es h1)) as Hs.
  apply (usable_pool R _ k (D_star R _ _ Hs HD)). destruct (star_keeps R _ _ k Hs HD) as (_ & B & _). apply B. now apply (usable_pool R _ k HD).
Qed.

(** C60, first half.  Partial: an answer that brought a descriptor for the built-in service
    before it was configured is excluded (see the refutation). *)
Theorem C60_builtin_descriptors_stay_partial R E Es h1 cfg h2 k b :
  let r := v_root (vrun R E Es (h1 ++ VConfigure (Some cfg) :: h2)) in
  embedded_ok R -> v_dead (vrun R E Es h1) = false -> try_from E cfg <> None -> names cfg k -> builtin R (snd k) b ->
  (forall b', ~ delivered R (ro_log (v_root (vrun R E Es h1))) k b') ->
  no_collision R (ro_log r) -> get_pool k (ro_dm r) = Some b.
Proof.
  intros r He Hd Ht Hn Hb Hnd Hc. pose proof (D_run R E Es (h1 ++ VConfigure (Some cfg) :: h2)) as HD. fold r in HD.
  assert (Hemb : dget k (dm_desc (ro_dm r)) = Some (DEmbedded (r_hash R b))).
  { unfold r. change (h1 ++ VConfigure (Some cfg) :: h2) with (h1 ++ [VConfigure (Some cfg)] ++ h2). rewrite app_assoc, vrun_app.
    destruct (star_keeps R _ _ k (vsteps_star R E Es h2 (vrun R E Es (h1 ++ [VConfigure (Some cfg)]))) (D_run R E Es _)) as (A & _). apply A. cbn [rs fst].
    pose proof (known_at R E Es h1 cfg [] k Hd Ht Hn) as Hk. pose proof (D_run R E Es (h1 ++ [VConfigure (Some cfg)])) as HD1.
    pose proof (builtin_emb R (snd k) b He Hb) as Hbe.
    destruct (dget k (dm_desc (ro_dm (v_root (vrun R E Es (h1 ++ [VConfigure (Some cfg)])))))) as [st|] eqn:Hst; [|easy].
    pose proof (d_state R _ HD1 k st Hst) as Hok. pose proof (d_emb R _ HD1) as Hem. cbn [rs fst snd] in Hok, Hem.
    destruct st as [h| |t|h]; cbn [state_ok] in Hok; rewrite ?Hem, ?Hbe in Hok.
    - congruence.
    - now destruct Hok.
    - now destruct Hok.
    - exfalso. destruct Hok as (b' & _ & Hdel & _).
      assert (Hl : forall l, delivered R l k b' -> forall l0 l1, l = l1 ++ l0 -> (forall t z, ~ In (RvAnswer t 0 z) l1) -> delivered R l0 k b').
      { clear. intros l (l2 & t & z & l3 & body & ds & k0 & -> & Ho & H) l0 l1 Hl Hna. revert l1 l2 Hl Hna.
        induction l1 as [|e l1 IH]; intros l2 Hl Hna; cbn in Hl; [subst l0; exists l2, t, z, l3, body, ds, k0; now repeat split|].
        destruct l2 as [|e2 l2]; cbn in Hl; injection Hl as He Hl; [subst e; destruct (Hna t z); now left|]. apply (IH l2 Hl). intros t' z' Hi. apply (Hna t' z'). now right. }
      assert (Hlog : exists l1, ro_log (v_root (vrun R E Es (h1 ++ [VConfigure (Some cfg)]))) = l1 ++ ro_log (v_root (vrun R E Es h1)) /\ forall t z, ~ In (RvAnswer t 0 z) l1).
      { rewrite vrun_snoc. unfold vstep. rewrite Hd. cbn [v_root]. set (r0 := v_root (vrun R E Es h1)). clear. unfold on_configure, process_config, r_emit. cbn [ro_factory ro_dm ro_tick ro_log].
        destruct (try_from E cfg) as [fa|].
        - set (m1 := set_descriptor_service _ _). set (l := RvConfigs :: _).
          assert (Hset : forall on r', exists l1, ro_log (set_tick_enabled R on r') = l1 ++ ro_log r' /\ forall t z, ~ In (RvAnswer t 0 z) l1).
          { intros on r'. unfold set_tick_enabled. destruct (Bool.eqb on (ro_tick r')); [now exists []|]. eexists [_]. split; [reflexivity|]. intros t z [?|[]]; discriminate. }
          assert (Hf : exists l1, snd (fetch_missing R m1 l) = l1 ++ l /\ forall t z, ~ In (RvAnswer t 0 z) l1).
          { unfold fetch_missing. destruct (get_missing m1); [now exists []|]. destruct (dm_service m1); [|now exists []].
            destruct (r_dispatch _ _ _ _); (eexists [_]; split; [reflexivity|intros ? ? [?|[]]; discriminate]). }
          assert (Hl : exists l1, l = l1 ++ ro_log r0 /\ forall t z, ~ In (RvAnswer t 0 z) l1) by (eexists [_; _]; split; [reflexivity|intros t z [?|[?|[]]]; discriminate]).
          assert (Hcat : forall a b c l1 l2, a = l1 ++ b -> b = l2 ++ c -> (forall t z, ~ In (RvAnswer t 0 z) l1) -> (forall t z, ~ In (RvAnswer t 0 z) l2) ->
             exists l3, a = l3 ++ c /\ forall t z, ~ In (RvAnswer t 0 z) l3).
          { intros a b c l1 l2 -> -> H1 H2. exists (l1 ++ l2). split; [now rewrite app_assoc|]. intros t z Hi. apply in_app_or in Hi as [Hi|Hi]; [now apply (H1 t z)|now apply (H2 t z)]. }
          destruct Hl as (la & Hla & Hna). destruct (has_expected m1).
          + destruct (fetch_missing R m1 l) as [m2 l2]. cbn in Hf. destruct Hf as (lb & Hlb & Hnb).
            destruct (Hset true (mkRoot fa m2 (ro_tick r0) l2)) as (lc & Hlc & Hnc). cbn [ro_log] in Hlc.
            destruct (Hcat _ _ _ lc lb Hlc Hlb Hnc Hnb) as (ld & Hld & Hnd). exact (Hcat _ _ _ ld la Hld Hla Hnd Hna).
          + destruct (Hset false (mkRoot fa m1 (ro_tick r0) l)) as (lc & Hlc & Hnc). cbn [ro_log] in Hlc. exact (Hcat _ _ _ lc la Hlc Hla Hnc Hna).
        - eexists [_; _]. split; [reflexivity|]. intros t z [?|[?|[]]]; discriminate. }
      destruct Hlog as (l1 & Hl1 & Hna). apply (Hnd b'). exact (Hl _ Hdel _ l1 Hl1 Hna). }
  unfold get_pool. rewrite Hemb. pose proof (builtin_emb R (snd k) b He Hb) as Hbe. apply base_emb in Hbe.
  destruct (aget N.eqb (r_hash R b) (dm_pools (dman0 R))) as [b'|] eqn:Hb'; [|easy].
  pose proof (d_base R _ HD _ _ Hb') as Hp. cbn [rs fst] in Hp. rewrite Hp. f_equal. apply base_pools in Hb' as (H1 & _ & H2).
  apply Hc; [unfold seen; tauto|now apply (builtin_seen R _ (snd k))|easy].
Qed.

(** C61: a service is asked for again only after the fetch that asked for it was answered *)
Theorem C61_one_fetch_in_flight R E Es h l1 c2 ks2 o2 l2 c1 ks1 t l3 k :
  ro_log (v_root (vrun R E Es h)) = l1 ++ RvFetch c2 ks2 o2 :: l2 ++ RvFetch c1 ks1 (Some t) :: l3 ->
  In k ks1 -> In k ks2 -> exists s z, In (RvAnswer t s z) l2.
Proof.
  intros Hl H1 H2. pose proof (D_run R E Es h) as HD. destruct (d_fetch R _ HD l1 c2 ks2 o2 _ k Hl H2) as (_ & _ & Hno).
  assert (Hdec : (exists s z, In (RvAnswer t s z) l2) \/ forall s z, ~ In (RvAnswer t s z) l2).
  { clear. induction l2 as [|e l IH]; [right; auto|]. destruct IH as [(s & z & H)|H]; [left; exists s, z; now right|].
    destruct e as [c| |t' s z| |c ks o|on ok]; try (right; intros s' z' [H'|H']; [discriminate|now apply (H s' z')]).
    destruct (N.eq_dec t' t) as [->|Hn]; [left; exists s, z; now left|]. right. intros s' z' [H'|H']; [congruence|now apply (H s' z')]. }
  destruct Hdec as [Hx|Hx]; [exact Hx|]. destruct (Hno t). exists l2, c1, ks1, l3. now repeat split.
Qed.

(** C61: a configured service without a descriptor and without a fetch on its way is asked
    for at the next tick, from the descriptor service of the last accepted configuration *)
Lemma service_known R E Es h1 cfg h2 : v_dead (vrun R E Es (h1 ++ VConfigure (Some cfg) :: h2)) = false -> try_from E cfg <> None ->
  (forall cfg', In (VConfigure (Some cfg')) h2 -> try_from E cfg' = None) ->
  dm_service (ro_dm (v_root (vrun R E Es (h1 ++ VConfigure (Some cfg) :: h2)))) = Some (pc_descriptor_service cfg).
Proof.
  intros Hd Ht. assert (Hf : forall m l, dm_service (fst (fetch_missing R m l)) = dm_service m).
  { intros m l. unfold fetch_missing. destruct (get_missing m); [easy|]. destruct (dm_service m) eqn:Hs; [|easy]. destruct (r_dispatch _ _ _ _); easy. }
  assert (He : forall ks m, dm_service (fold_left (fun m k => add_expected k m) ks m) = dm_service m).
  { induction ks as [|k ks IH]; intros m; cbn; [easy|]. now rewrite IH. }
  revert Hd. induction h2 as [|i h2 IH] using rev_ind; intros Hd Hl.
  - rewrite vrun_snoc. apply alive_before in Hd. unfold vstep. rewrite Hd. cbn [v_root]. unfold on_configure, process_config, r_emit. cbn [ro_factory ro_dm ro_tick ro_log].
    destruct (try_from E cfg) as [fa|]; [|easy]. set (m1 := set_descriptor_service _ _). destruct (has_expected m1).
    + match goal with |- context [fetch_missing R m1 ?l] => pose proof (Hf m1 l) as H; destruct (fetch_missing R m1 l) as [m2 l2] end.
      rewrite (proj2 (settick_factory R _ _)). exact H.
    + now rewrite (proj2 (settick_factory R _ _)).
  - rewrite app_comm_cons, app_assoc in *. pose proof (alive_before _ _ _ _ _ Hd) as Hd'. rewrite vrun_snoc.
    assert (IH' := IH Hd' (fun c H => Hl c (in_or_app _ _ _ (or_introl H)))). clear IH. set (v := vrun R E Es (h1 ++ VConfigure (Some cfg) :: h2)) in *. unfold vstep. rewrite Hd'.
    destruct i as [[c|]| |t s z|id|id j]; cbn [v_root]; try exact IH'.
    + unfold on_configure, process_config, r_emit. cbn [ro_factory ro_dm ro_tick ro_log]. rewrite (Hl c) by (apply in_or_app; right; now left). cbn [ro_dm]. now rewrite He.
    + unfold on_tick, r_emit. cbn [ro_factory ro_dm ro_tick ro_log].
      match goal with |- context [fetch_missing R ?m ?l] => pose proof (Hf m l) as H; destruct (fetch_missing R m l) as [m2 l2] end. cbn in *. congruence.
    + unfold on_answer, r_emit, with_dm, reset_pending, with_desc. cbn [ro_factory ro_dm ro_tick ro_log dm_service].
      destruct (N.eqb s 0); [|exact IH']. destruct (r_body _ _ _) as [b|]; [|exact IH']. unfold handle_response. destruct (existsb _ _); [|exact IH']. destruct (r_response R b) as [ds|]; [|exact IH'].
      destruct (take_keeps R ds (ro_dm (v_root v)) ([], [])) as (_ & _ & _ & _ & H). exact (eq_trans H IH').
    + destruct (aget N.eqb id (v_ctxs v)) as [[fa f]|]; exact IH'.
Qed.

Theorem C61_unresolved_services_are_requested_again R E Es h0 cfg0 h1 cfg h2 k :
  let v := vrun R E Es (h0 ++ VConfigure (Some cfg0) :: h1 ++ VConfigure (Some cfg) :: h2) in
  v_dead v = false -> try_from E cfg0 <> None -> names cfg0 k ->
  try_from E cfg <> None -> (forall cfg', In (VConfigure (Some cfg')) h2 -> try_from E cfg' = None) ->
  get_pool k (ro_dm (v_root v)) = None -> (forall t, ~ open_for (ro_log (v_root v)) k t) ->
  exists ks o, In k ks /\ ro_log (v_root (vstep R E Es v VTick)) = RvFetch (pc_descriptor_service cfg) ks o :: RvTick :: ro_log (v_root v).
Proof.
  intros v Hd Ht0 Hn Ht Hl Hp Ho. pose proof (D_run R E Es (h0 ++ VConfigure (Some cfg0) :: h1 ++ VConfigure (Some cfg) :: h2)) as HD. fold v in HD.
  assert (Hsv : dm_service (ro_dm (v_root v)) = Some (pc_descriptor_service cfg)).
  { unfold v in *. rewrite app_comm_cons, app_assoc in *. now apply service_known. }
  assert (Hk : dget k (dm_desc (ro_dm (v_root v))) <> None) by (apply known_at; [now apply alive_before in Hd|easy|easy]).
  assert (Hm : dget k (dm_desc (ro_dm (v_root v))) = Some DMissing).
  { assert (Hu : ~ usable k (ro_dm (v_root v))) by (intros Hu; now apply (usable_pool R _ k HD) in Hu).
    destruct (dget k (dm_desc (ro_dm (v_root v)))) as [[h| |t|h]|] eqn:Hg; try easy.
    - destruct Hu. exists h. now left.
    - pose proof (d_state R _ HD k _ Hg) as (_ & _ & Hop). now destruct (Ho t).
    - destruct Hu. exists h. now right. }
  apply (In_missing k _ (d_nodup R _ HD)) in Hm. cbn [rs fst] in Hm.
  unfold vstep. rewrite Hd. cbn [v_root]. unfold on_tick, r_emit, fetch_missing. cbn [ro_factory ro_dm ro_tick ro_log].
  destruct (get_missing (ro_dm (v_root v))) as [|k1 ks1] eqn:Hg; [destruct Hm|]. rewrite <- Hg in *. rewrite Hsv.
  destruct (r_dispatch R _ _ _) as [tok|]; cbn [ro_log]; eauto.
Qed.

(** ** The timer *)

Lemma settick_on R on r : (forall l b, r_settick R l b = true) -> ro_tick r = ticking (ro_log r) ->
  ro_tick (set_tick_enabled R on r) = on /\ ticking (ro_log (set_tick_enabled R on r)) = on.
Proof.
  intros Hs Ht. unfold set_tick_enabled. destruct (Bool.eqb on (ro_tick r)) eqn:He.
  - apply Bool.eqb_prop in He. split; congruence.
  - rewrite Hs. cbn. easy.
Qed.
Lemma fetch_ticking R m l : ticking (snd (fetch_missing R m l)) = ticking l.
Proof. unfold fetch_missing. destruct (get_missing m); [easy|]. destruct (dm_service m); [|easy]. now destruct (r_dispatch _ _ _ _). Qed.

Lemma configure_tick R E c r : (forall l b, r_settick R l b = true) -> ro_tick r = ticking (ro_log r) ->
  let r' := on_configure R E c r in
  ro_tick r' = ticking (ro_log r') /\
  (forall cfg, c = Some cfg -> try_from E cfg <> None -> ro_tick r' = has_expected (ro_dm r')) /\
  ((forall cfg, c = Some cfg -> try_from E cfg = None) -> ro_tick r' = ro_tick r).
Proof.
  intros Hs Ht r'. unfold r', on_configure, r_emit. destruct c as [cfg|]; [|cbn; repeat split; [easy|discriminate]].
  unfold process_config. cbn [ro_factory ro_dm ro_tick ro_log]. destruct (try_from E cfg) as [fa|] eqn:Hf.
  - set (m1 := set_descriptor_service _ _). set (l := RvConfigs :: _). assert (Hl0 : ticking l = ticking (ro_log r)) by reflexivity.
    destruct (has_expected m1) eqn:Hx.
    + pose proof (fetch_ticking R m1 l) as Hl.
      assert (Hhas : has_expected (fst (fetch_missing R m1 l)) = true).
      { unfold fetch_missing. destruct (get_missing m1) as [|k ks] eqn:Hm; [easy|]. rewrite <- Hm. destruct (dm_service m1); [|easy]. destruct (r_dispatch _ _ _ _) as [tok|]; [|easy].
        unfold has_expected. cbn [fst with_desc dm_desc]. apply existsb_exists.
        assert (Hg : dget k (fold_left (fun d k0 => dset k0 (DPending tok) d) (get_missing m1) (dm_desc m1)) = Some (DPending tok)).
        { rewrite dget_pend. rewrite (proj2 (existsb_key k (get_missing m1))); [easy|]. rewrite Hm. now left. }
        exists (k, DPending tok). split; [now apply (aget_In dkey_eqb dkey_eqb_eq)|easy]. }
      destruct (fetch_missing R m1 l) as [m2 l2]. cbn [fst snd] in *.
      destruct (settick_on R true (mkRoot fa m2 (ro_tick r) l2) Hs) as [A B]; [cbn [ro_tick ro_log]; congruence|].
      rewrite A, B, (proj2 (settick_factory R _ _)). cbn [ro_dm]. rewrite Hhas. repeat split; try easy. intros H. now rewrite (H cfg eq_refl) in Hf.
    + destruct (settick_on R false (mkRoot fa m1 (ro_tick r) l) Hs) as [A B]; [cbn [ro_tick ro_log]; congruence|].
      rewrite A, B, (proj2 (settick_factory R _ _)). cbn [ro_dm]. rewrite Hx. repeat split; try easy. intros H. now rewrite (H cfg eq_refl) in Hf.
  - cbn. repeat split; try easy. intros c [= <-] H. now rewrite Hf in H.
Qed.

Lemma tick_known R E Es h : (forall l b, r_settick R l b = true) -> ro_tick (v_root (vrun R E Es h)) = ticking (ro_log (v_root (vrun R E Es h))).
Proof.
  intros Hs. induction h as [|i h IH] using rev_ind; [reflexivity|]. rewrite vrun_snoc. set (v := vrun R E Es h) in *. unfold vstep. destruct (v_dead v); [easy|].
  destruct i as [c| |t s z|id|id j]; cbn [v_root]; try exact IH.
  - now apply configure_tick.
  - unfold on_tick, r_emit. cbn [ro_factory ro_dm ro_tick ro_log]. pose proof (fetch_ticking R (ro_dm (v_root v)) (RvTick :: ro_log (v_root v))) as H.
    destruct (fetch_missing _ _ _) as [m l]. cbn in *. congruence.
  - destruct (aget N.eqb id (v_ctxs v)) as [[fa f]|]; exact IH.
Qed.

(** C61: if the host grants the timer, it runs from the moment a service without a
    built-in descriptor is configured *)
Theorem C61_timer_runs R E Es h1 cfg h2 k :
  let v := vrun R E Es (h1 ++ VConfigure (Some cfg) :: h2) in
  (forall l b, r_settick R l b = true) -> v_dead v = false -> try_from E cfg <> None -> names cfg k -> (forall b, ~ builtin R (snd k) b) ->
  ticking (ro_log (v_root v)) = true.
Proof.
  intros v Hs Hd Ht Hn Hb. unfold v in *. clear v. rewrite <- (tick_known R E Es _ Hs).
  assert (Hhas : forall h', v_dead (vrun R E Es (h1 ++ VConfigure (Some cfg) :: h')) = false -> has_expected (ro_dm (v_root (vrun R E Es (h1 ++ VConfigure (Some cfg) :: h')))) = true).
  { intros h' Hd'. pose proof (known_at R E Es h1 cfg h' k (alive_before _ _ _ _ _ Hd') Ht Hn) as Hk.
    pose proof (D_run R E Es (h1 ++ VConfigure (Some cfg) :: h')) as HD. set (r := v_root _) in *.
    destruct (dget k (dm_desc (ro_dm r))) as [st|] eqn:Hst; [|easy]. unfold has_expected. apply existsb_exists. exists (k, st).
    split; [now apply (aget_In dkey_eqb dkey_eqb_eq)|]. cbn. destruct st as [h| |t|h]; try easy. exfalso.
    pose proof (d_state R _ HD k _ Hst) as Hok. pose proof (d_emb R _ HD) as Hem. cbn [rs fst state_ok] in Hok, Hem. rewrite Hem in Hok. apply emb_builtin in Hok as (b & Hbb & _). now apply (Hb b). }
  revert Hd. induction h2 as [|i h2 IH] using rev_ind; intros Hd.
  - specialize (Hhas [] Hd). pose proof (alive_before _ _ _ _ _ Hd) as Hd'. rewrite vrun_snoc in *. unfold vstep in *. rewrite Hd' in *. cbn [v_root] in *.
    destruct (configure_tick R E (Some cfg) (v_root (vrun R E Es h1)) Hs (tick_known R E Es h1 Hs)) as (_ & A & _). rewrite (A cfg eq_refl Ht). exact Hhas.
  - pose proof (Hhas (h2 ++ [i]) Hd) as Hh. rewrite app_comm_cons, app_assoc in *. pose proof (alive_before _ _ _ _ _ Hd) as Hd'. specialize (IH Hd'). rewrite vrun_snoc in *.
    set (v := vrun R E Es (h1 ++ VConfigure (Some cfg) :: h2)) in *. unfold vstep in *. rewrite Hd' in *.
    destruct i as [c| |t s z|id|id j]; cbn [v_root] in *; try exact IH.
    + destruct (configure_tick R E c (v_root v) Hs (tick_known R E Es _ Hs)) as (_ & A & B).
      destruct c as [c|]; [|rewrite B by discriminate; exact IH]. destruct (try_from E c) eqn:Hc.
      * rewrite (A c eq_refl); [exact Hh|congruence].
      * rewrite B; [exact IH|]. now intros c' [= <-].
    + unfold on_tick, r_emit. cbn [ro_factory ro_dm ro_tick ro_log]. destruct (fetch_missing _ _ _) as [m l]. exact IH.
    + destruct (aget N.eqb id (v_ctxs v)) as [[fa f]|]; exact IH.
Qed.

(** and if the host refuses the timer, it is asked for again when the next configuration comes *)
Lemma settick_any R on r : ro_tick r = ticking (ro_log r) -> let r' := set_tick_enabled R on r in
  ro_tick r' = ticking (ro_log r') /\ (ticking (ro_log r') = on \/ exists l, ro_log r' = RvSetTick on false :: l).
Proof.
  intros Ht r'. unfold r', set_tick_enabled. destruct (Bool.eqb on (ro_tick r)) eqn:He.
  - apply Bool.eqb_prop in He. split; [exact Ht|left; congruence].
  - destruct (r_settick R (ro_log r) on); cbn; eauto.
Qed.
Lemma configure_any R E c r : ro_tick r = ticking (ro_log r) -> let r' := on_configure R E c r in
  ro_tick r' = ticking (ro_log r') /\
  (forall cfg, c = Some cfg -> try_from E cfg <> None -> has_expected (ro_dm r') = true -> ticking (ro_log r') = true \/ exists l, ro_log r' = RvSetTick true false :: l).
Proof.
  intros Ht r'. unfold r', on_configure, r_emit. destruct c as [cfg|]; [|cbn; split; [exact Ht|discriminate]].
  unfold process_config. cbn [ro_factory ro_dm ro_tick ro_log]. destruct (try_from E cfg) as [fa|] eqn:Hf.
  2: { cbn. split; [exact Ht|]. intros c [= <-] H. now rewrite Hf in H. }
  set (m1 := set_descriptor_service _ _). set (l := RvConfigs :: _). assert (Hl0 : ticking l = ticking (ro_log r)) by reflexivity.
  destruct (has_expected m1) eqn:Hx.
  - pose proof (fetch_ticking R m1 l) as Hl. destruct (fetch_missing R m1 l) as [m2 l2]. cbn [fst snd] in *.
    destruct (settick_any R true (mkRoot fa m2 (ro_tick r) l2)) as [A B]; [cbn [ro_tick ro_log]; congruence|]. split; [exact A|]. now intros _ _ _ _.
  - destruct (settick_any R false (mkRoot fa m1 (ro_tick r) l)) as [A B]; [cbn [ro_tick ro_log]; congruence|]. split; [exact A|].
    intros _ _ _ H. rewrite (proj2 (settick_factory R _ _)) in H. cbn [ro_dm] in H. congruence.
Qed.
Lemma tick_any R E Es h : ro_tick (v_root (vrun R E Es h)) = ticking (ro_log (v_root (vrun R E Es h))).
Proof.
  induction h as [|i h IH] using rev_ind; [reflexivity|]. rewrite vrun_snoc. set (v := vrun R E Es h) in *. unfold vstep. destruct (v_dead v); [easy|].
  destruct i as [c| |t s z|id|id j]; cbn [v_root]; try exact IH.
  - now apply configure_any.
  - unfold on_tick, r_emit. cbn [ro_factory ro_dm ro_tick ro_log]. pose proof (fetch_ticking R (ro_dm (v_root v)) (RvTick :: ro_log (v_root v))) as H.
    destruct (fetch_missing _ _ _) as [m l]. cbn in *. congruence.
  - destruct (aget N.eqb id (v_ctxs v)) as [[fa f]|]; exact IH.
Qed.
Theorem C61_refused_timer_is_asked_for_again R E Es h cfg k :
  let v := vrun R E Es (h ++ [VConfigure (Some cfg)]) in
  v_dead v = false -> try_from E cfg <> None -> names cfg k -> (forall b, ~ builtin R (snd k) b) ->
  ticking (ro_log (v_root v)) = true \/ exists l, ro_log (v_root v) = RvSetTick true false :: l.
Proof.
  intros v Hd Ht Hn Hb. unfold v in *. clear v.
  assert (Hhas : has_expected (ro_dm (v_root (vrun R E Es (h ++ [VConfigure (Some cfg)])))) = true).
  { pose proof (known_at R E Es h cfg [] k (alive_before _ _ _ _ _ Hd) Ht Hn) as Hk.
    pose proof (D_run R E Es (h ++ [VConfigure (Some cfg)])) as HD. set (r := v_root _) in *.
    destruct (dget k (dm_desc (ro_dm r))) as [st|] eqn:Hst; [|easy]. unfold has_expected. apply existsb_exists. exists (k, st).
    split; [now apply (aget_In dkey_eqb dkey_eqb_eq)|]. cbn. destruct st as [x| |t|x]; try easy. exfalso.
    pose proof (d_state R _ HD k _ Hst) as Hok. pose proof (d_emb R _ HD) as Hem. cbn [rs fst state_ok] in Hok, Hem. rewrite Hem in Hok. apply emb_builtin in Hok as (b & Hbb & _). now apply (Hb b). }
  pose proof (alive_before _ _ _ _ _ Hd) as Hd'. rewrite vrun_snoc in *. unfold vstep in *. rewrite Hd' in *. cbn [v_root] in *.
  destruct (configure_any R E (Some cfg) (v_root (vrun R E Es h)) (tick_any R E Es h)) as (_ & A). now apply (A cfg).
Qed.
Print Assumptions C61_refused_timer_is_asked_for_again.

(** * Configurations *)

Lemma configure_factory R E c r : ro_factory (on_configure R E c r) =
  match c with Some cfg => match try_from E cfg with Some fa => fa | None => ro_factory r end | None => ro_factory r end.
Proof.
  unfold on_configure, process_config, r_emit. destruct c as [cfg|]; [|easy]. cbn [ro_factory ro_dm ro_tick ro_log].
  destruct (try_from E cfg) as [fa|]; [|easy]. destruct (has_expected _).
  - destruct (fetch_missing _ _ _) as [m l]. now rewrite (proj1 (settick_factory R _ _)).
  - now rewrite (proj1 (settick_factory R _ _)).
Qed.

Lemma in_force_snoc E h i fa : in_force E h fa -> match i with VConfigure (Some cfg) => try_from E cfg = None | _ => True end -> in_force E (h ++ [i]) fa.
Proof.
  intros H Hi. assert (Hc : forall cfg, In (VConfigure (Some cfg)) [i] -> try_from E cfg = None) by (intros cfg [->|[]]; exact Hi).
  destruct H as [h1 cfg h2 fa Hf Hl|h Hl].
  - rewrite <- app_assoc. cbn. apply if_last; [easy|]. intros c Hx. apply in_app_or in Hx as [Hx|Hx]; auto.
  - apply if_none. intros c Hx. apply in_app_or in Hx as [Hx|Hx]; auto.
Qed.

Lemma factory_in_force R E Es h : v_dead (vrun R E Es h) = false -> in_force E h (ro_factory (v_root (vrun R E Es h))).
Proof.
  induction h as [|i h IH] using rev_ind; intros Hd; [apply if_none; intros ? []|]. pose proof (alive_before _ _ _ _ _ Hd) as Hd'. specialize (IH Hd').
  rewrite vrun_snoc. set (v := vrun R E Es h) in *. unfold vstep. rewrite Hd'.
  destruct i as [c| |t s z|id|id j]; cbn [v_root].
  - rewrite configure_factory. destruct c as [cfg|]; [|now apply in_force_snoc]. destruct (try_from E cfg) as [fa|] eqn:Hf; [|now apply in_force_snoc]. now apply (if_last E h cfg [] fa Hf).
  - unfold on_tick, r_emit. cbn [ro_factory ro_dm ro_tick ro_log]. destruct (fetch_missing _ _ _) as [m l]. now apply in_force_snoc.
  - now apply in_force_snoc.
  - now apply in_force_snoc.
  - destruct (aget N.eqb id (v_ctxs v)) as [[fa f]|]; now apply in_force_snoc.
Qed.

Lemma inputs_app id h1 h2 : inputs id (h1 ++ h2) = inputs id h1 ++ inputs id h2.
Proof. induction h1 as [|i h1 IH]; cbn; [easy|]. destruct i; try exact IH. destruct (N.eqb id0 id); [|exact IH]. cbn. now rewrite IH. Qed.

(** C63: every request is served by the last configuration that compiled before the
    request began, whatever happens to other requests and to the configuration meanwhile;
    before the first such configuration by an empty one *)
Theorem C63_requests_keep_their_configuration R E Es h1 id h2 :
  let v := vrun R E Es (h1 ++ VCreate id :: h2) in
  v_dead v = false -> ~ In (VCreate id) h2 ->
  exists fa, in_force E h1 fa /\ aget N.eqb id (v_ctxs v) = Some (fa, frun (Es id) fa (inputs id h2)).
Proof.
  intros v Hd Hn. unfold v in *. clear v. exists (ro_factory (v_root (vrun R E Es h1))). split; [apply factory_in_force; now apply alive_before in Hd|].
  revert Hd Hn. induction h2 as [|i h2 IH] using rev_ind; intros Hd Hn.
  - rewrite vrun_snoc. unfold vstep. rewrite (alive_before _ _ _ _ _ Hd). cbn [v_ctxs]. apply (aget_aset_same N.eqb N_eqb_eq').
  - rewrite app_comm_cons, app_assoc in *. pose proof (alive_before _ _ _ _ _ Hd) as Hd'.
    assert (IH' := IH Hd' (fun H => Hn (in_or_app _ _ _ (or_introl H)))). clear IH. rewrite vrun_snoc, inputs_app.
    set (v := vrun R E Es (h1 ++ VCreate id :: h2)) in *. set (fa := ro_factory (v_root (vrun R E Es h1))) in *. unfold vstep. rewrite Hd'.
    destruct i as [c| |t s z|id'|id' j]; cbn [v_ctxs inputs]; rewrite ?app_nil_r; try exact IH'.
    + rewrite (aget_aset_other N.eqb N_eqb_eq'); [exact IH'|]. intros <-. apply Hn. apply in_or_app. right. now left.
    + destruct (N.eqb_spec id' id) as [->|Hne].
      * rewrite IH'. cbn [v_ctxs]. rewrite (aget_aset_same N.eqb N_eqb_eq'). unfold frun. now rewrite fold_left_app.
      * rewrite app_nil_r. destruct (aget N.eqb id' (v_ctxs v)) as [[fa' f']|]; [|exact IH']. cbn [v_ctxs]. rewrite (aget_aset_other N.eqb N_eqb_eq') by congruence. exact IH'.
Qed.

(** C63: a configuration that is missing, cannot be read or does not compile makes no
    difference to any request *)
Theorem C63_rejected_configuration_changes_no_request R E Es h1 c h2 :
  (forall cfg, c = Some cfg -> try_from E cfg = None) ->
  v_ctxs (vrun R E Es (h1 ++ VConfigure c :: h2)) = v_ctxs (vrun R E Es (h1 ++ h2)) /\
  v_dead (vrun R E Es (h1 ++ VConfigure c :: h2)) = v_dead (vrun R E Es (h1 ++ h2)).
Proof.
  intros Hc. set (same := fun v w : vm => v_ctxs v = v_ctxs w /\ v_dead v = v_dead w /\ ro_factory (v_root v) = ro_factory (v_root w)).
  assert (Hstep : forall v w i, same v w -> same (vstep R E Es v i) (vstep R E Es w i)).
  { intros v w i (H1 & H2 & H3). unfold vstep. rewrite H2. destruct (v_dead w) eqn:Hw; [repeat split; congruence|].
    destruct i as [c'| |t s z|id|id j]; repeat split; cbn [v_ctxs v_dead v_root]; try congruence.
    - rewrite !configure_factory. now rewrite H3.
    - unfold on_tick, r_emit. cbn [ro_factory ro_dm ro_tick ro_log]. destruct (fetch_missing _ (ro_dm (v_root v)) _), (fetch_missing _ (ro_dm (v_root w)) _). exact H3.
    - exact H3.
    - rewrite H1. destruct (aget N.eqb id (v_ctxs w)) as [[fa f]|]; cbn; congruence.
    - rewrite H1. destruct (aget N.eqb id (v_ctxs w)) as [[fa f]|]; cbn; congruence.
    - rewrite H1. destruct (aget N.eqb id (v_ctxs w)) as [[fa f]|]; cbn; congruence. }
  assert (Hsteps : forall l v w, same v w -> same (fold_left (vstep R E Es) l v) (fold_left (vstep R E Es) l w)).
  { induction l as [|i l IH]; intros v w H; cbn; [easy|]. apply IH. now apply Hstep. }
  rewrite !vrun_app. cbn [fold_left]. destruct (Hsteps h2 (vstep R E Es (vrun R E Es h1) (VConfigure c)) (vrun R E Es h1)) as (A & B & _); [|easy].
  unfold vstep. destruct (v_dead (vrun R E Es h1)) eqn:Hd; [now repeat split|]. repeat split; cbn [v_ctxs v_dead v_root]; [easy|].
  rewrite configure_factory. destruct c as [cfg|]; [|easy]. now rewrite (Hc cfg eq_refl).
Qed.

(** The compiler uses only the CEL parser and the alphabet of its environment, so the
    configuration in force is the same for all contexts that share them. *)
Section Ext.
  Variables (E E' : env).
  Hypothesis (Hp : o_parse E' = o_parse E) (Ha : o_alpha E' = o_alpha E).
  Lemma parse_ext s : parse_expr E' s = parse_expr E s.
  Proof. unfold parse_expr. now rewrite Hp. Qed.
  Lemma compile_ext svs t : forall id, compile_typed E' svs t id = compile_typed E svs t id.
  Proof.
    induction t as [p t g s var sv m rs IH|p t g s o Ho] using taction_ind'; intros id.
    - rewrite !compile_typed_grpc, !parse_ext. destruct (parse_expr E p); [|easy]. destruct (tget sv svs) as [[k i|]|]; try easy.
      assert (Hr : forall n, compile_replies E' svs id n rs = compile_replies E svs id n rs).
      { induction rs as [|r rs IHr]; intros n; [easy|]. cbn. apply Forall_cons_iff in IH as [H1 H2]. rewrite H1.
        change ((fix go (i0 : nat) (l : list taction) {struct l} : option (list action) := match l with [] => Some [] | r0 :: l' => if ta_seq r0 then None else match compile_typed E' svs r0 (id ++ dot :: nat_text i0) with Some a => match go (S i0) l' with Some l'' => Some (a :: l'') | None => None end | None => None end end) (S n) rs) with (compile_replies E' svs id (S n) rs).
        now rewrite (IHr H2). }
      now rewrite Hr.
    - destruct o as [? ? ? ?|d|m h|q v e|mm]; [now destruct (Ho _ _ _ _ eq_refl)| | | |]; cbn; rewrite !parse_ext; reflexivity.
  Qed.
  Lemma try_from_ext cfg : try_from E' cfg = try_from E cfg.
  Proof.
    assert (Hm : forall {A B} (f g : A -> option B) l, (forall a, f a = g a) -> map_opt f l = map_opt g l).
    { intros A B f g l H. induction l as [|a l IH]; cbn; [easy|]. now rewrite H, IH. }
    assert (Hs : forall svs rd s, compile_set E' svs rd s = compile_set E svs rd s).
    { intros svs rd s. unfold compile_set. rewrite (Hm _ _ _ (parse_expr E) _ parse_ext).
      rewrite (Hm _ _ (compile_action E' svs rd) (compile_action E svs rd)); [easy|]. intros [i [[t|l] d]]; cbn; [now rewrite compile_ext|].
      unfold compile_legacy. destruct (tget (la_service l) svs) as [[[] ?|]|]; try easy; now rewrite compile_ext. }
    assert (Hf : forall svs rd dev l ix, fold_left (add_set E' svs rd dev) l ix = fold_left (add_set E svs rd dev) l ix).
    { intros svs rd dev l. induction l as [|s l IH]; intros ix; cbn; [easy|]. rewrite IH. f_equal. unfold add_set. destruct ix; [|easy]. now rewrite Hs. }
    unfold try_from. destruct (map_opt _ (pc_services cfg)) as [svs|]; [|easy]. rewrite Ha.
    assert (Hfm : forall l, filter_map (fun kv => option_map (fun e => (domain_and_field (o_alpha E) (fst kv), (snd kv, e))) (parse_expr E' (snd kv))) l =
                  filter_map (fun kv => option_map (fun e => (domain_and_field (o_alpha E) (fst kv), (snd kv, e))) (parse_expr E (snd kv))) l).
    { induction l as [|kv l IH]; cbn; [easy|]. now rewrite parse_ext, IH. }
    now rewrite Hfm, Hf.
  Qed.
End Ext.

(** ... so what is proved of [run E fa] for a compiled configuration holds of the requests
    of an instance. *)
Theorem C63_requests_are_served_by_a_compiled_configuration R E Es h1 id h2 :
  let v := vrun R E Es (h1 ++ VCreate id :: h2) in
  o_parse (Es id) = o_parse E -> o_alpha (Es id) = o_alpha E -> v_dead v = false -> ~ In (VCreate id) h2 ->
  exists fa, aget N.eqb id (v_ctxs v) = Some (fa, frun (Es id) fa (inputs id h2)) /\
    (fa = factory0 \/ exists cfg, In (VConfigure (Some cfg)) h1 /\ try_from (Es id) cfg = Some fa).
Proof.
  intros v Hp Ha Hd Hn. destruct (C63_requests_keep_their_configuration R E Es h1 id h2 Hd Hn) as (fa & Hi & Hf). exists fa. split; [exact Hf|].
  destruct Hi as [h0 cfg h3 fa Ht _|h0 _]; [right|now left]. exists cfg. split; [apply in_or_app; right; now left|]. now rewrite (try_from_ext E (Es id) Hp Ha).
Qed.

(** * What is asked of the control plane *)

(** C82, partial: only services some configuration named, of type dynamic, without a
    built-in descriptor. *)
Theorem C82_only_configured_services_are_requested_partial R E Es h l1 c ks o l2 k :
  embedded_ok R -> ro_log (v_root (vrun R E Es h)) = l1 ++ RvFetch c ks o :: l2 -> In k ks ->
  (forall b, ~ builtin R (snd k) b) /\
  exists cfg n sc, In (RvConfigure (Some cfg)) l2 /\ In (n, sc) (pc_services cfg) /\ sc_type sc = SDynamic /\ sc_endpoint sc = fst k /\ sc_grpc_service sc = Some (snd k).
Proof.
  intros He Hl Hk. pose proof (D_run R E Es h) as HD. destruct (d_fetch R _ HD l1 c ks o l2 k Hl Hk) as ((cfg & Hc & Hi) & Hno & _).
  assert (Hb : forall b, ~ builtin R (snd k) b) by (intros b Hb; rewrite (builtin_emb R _ b He Hb) in Hno; discriminate).
  split; [exact Hb|]. apply expected_names in Hi as (n & sc & H1 & H2 & H3). exists cfg, n, sc. split; [easy|]. split; [easy|]. unfold grpc_name in H3.
  assert (Hx : forall s b, Some s = Some (snd k) -> builtin R s b -> False) by (intros s b Hs Hsb; apply (Hb b); congruence).
  destruct (sc_type sc); try discriminate; try (now repeat split); exfalso; (eapply Hx; [exact H3|constructor]).
Qed.

(** * Examples and counterexamples *)

Definition num (s : text) : N := fold_left (fun n a => n * 256 + N_of_ascii a)%N s 1%N.
Definition kS : dkey := (tx "up", tx "S").
Definition kT : dkey := (tx "up", tx "T").
Definition kA : dkey := (tx "authorino", tx "envoy.service.auth.v3.Authorization").
(** Answers of size 1: the service S; 2: S and T; 3: S and the authorization service; 4: a
    descriptor that does not load *)
Definition Rd : renv := mkRenv num (tx "RL") (tx "AU") (fun b => negb (text_eqb b (tx "bad"))) (fun _ _ => true)
  (fun b => if text_eqb b (tx "1") then Some [(kS, tx "S1")]
            else if text_eqb b (tx "2") then Some [(kS, tx "S2"); (kT, tx "T2")]
            else if text_eqb b (tx "3") then Some [(kS, tx "S3"); (kA, tx "own")]
            else if text_eqb b (tx "4") then Some [(kS, tx "bad")] else None)
  (fun l _ _ => Some (N.of_nat (List.length l))) (fun _ n => Some (nat_text (N.to_nat n))) (fun _ _ => true).
Definition svc_of (s : string) : text * svc_cfg := (tx s, mkSvcCfg SDynamic (tx "up") true 100 (Some (tx s)) (Some (tx "M"))).
Definition cfg_of (svs : list (text * svc_cfg)) (pred : string) : plugin_cfg :=
  mkPlugin [] svs [mkSet (tx "s") [tx "h"] [tx pred] [CTyped (ddeny "true" true false)]] None None (tx "ctrl").
Definition auth_svc : text * svc_cfg := (tx "auth", mkSvcCfg SAuth (tx "authorino") true 100 None None).
Notation rund := (vrun Rd Ed (fun _ => Ed)).
Notation logd h := (ro_log (v_root (rund h))).
Notation poold h k := (get_pool k (ro_dm (v_root (rund h)))).
Definition conf (svs : list (text * svc_cfg)) : vin := VConfigure (Some (cfg_of svs "true")).

(** a fetch, a failed answer, a fetch by the timer, a good answer *)
Example C61_ex : logd [conf [svc_of "S"]; VAnswer 2 14 0; VTick; VTick; VAnswer 6 0 1; VTick] =
  [RvTick; RvAnswer 6 0 1; RvTick; RvFetch (tx "ctrl") [kS] (Some 6%N); RvTick; RvAnswer 2 14 0; RvSetTick true true;
   RvFetch (tx "ctrl") [kS] (Some 2%N); RvConfigs; RvConfigure (Some (cfg_of [svc_of "S"] "true"))].
Proof. vm_compute. reflexivity. Qed.
(** the host refuses the timer until it has been asked twice *)
Definition Rref : renv := mkRenv (r_hash Rd) (r_ratelimit Rd) (r_auth Rd) (r_pool Rd) (r_has Rd) (r_response Rd) (r_dispatch Rd) (r_body Rd)
  (fun l _ => existsb (fun e => match e with RvSetTick _ _ => true | _ => false end) l).
Example C61_refused_ex : let run h := ro_log (v_root (vrun Rref Ed (fun _ => Ed) h)) in
  (forall b, ~ builtin Rref (snd kS) b) /\
  hd_error (run [conf [svc_of "S"]]) = Some (RvSetTick true false) /\ ticking (run [conf [svc_of "S"]]) = false /\
  ticking (run [conf [svc_of "S"]; conf [svc_of "S"]]) = true.
Proof.
  split; [|vm_compute; auto]. intros b H. inversion H.
Qed.

(** meets the hypotheses of [C61_unresolved_services_are_requested_again] and of [C61_timer_runs] *)
Example C61_ex2 : let h := [conf [svc_of "S"]; VAnswer 2 14 0] in
  v_dead (rund h) = false /\ try_from Ed (cfg_of [svc_of "S"] "true") <> None /\ names (cfg_of [svc_of "S"] "true") kS /\
  (forall b, ~ builtin Rd (snd kS) b) /\
  poold h kS = None /\ (forall t, ~ open_for (logd h) kS t) /\ logd (h ++ [VTick]) = RvFetch (tx "ctrl") [kS] (Some 6%N) :: RvTick :: logd h.
Proof.
  cbv zeta. do 2 (split; [vm_compute; congruence|]). split; [eexists _, _; split; [left; reflexivity|split; reflexivity]|].
  split; [intros b H; inversion H|]. split; [vm_compute; reflexivity|]. split; [|vm_compute; reflexivity].
  intros t. vm_compute. intros H. apply open_inv in H as [(c & ks & Hf & _)|[H Hn]]; [discriminate|].
  apply open_inv in H as [(c & ks & Hf & _)|[H _]]; [discriminate|].
  apply open_inv in H as [(c & ks & Hf & _)|[H _]]; [injection Hf as _ _ <-; exact (Hn _ _ eq_refl)|].
  do 2 (apply open_inv in H as [(c & ks & Hf & _)|[H _]]; [discriminate|]).
  destruct H as ([|] & ? & ? & ? & H & _); discriminate.
Qed.

(** a descriptor delivered and used; the built-in one of the authorization service *)
Example C62_ex : let h := [conf [svc_of "S"; auth_svc]; VAnswer 2 0 1] in
  poold h kS = Some (tx "S1") /\ poold h kA = Some (tx "AU") /\ builtin Rd (snd kA) (tx "AU") /\ delivered Rd (logd h) kS (tx "S1") /\
  (forall k b, delivered Rd (logd h) k b -> b = tx "S1") /\ no_collision Rd (logd h).
Proof.
  cbv zeta. split; [vm_compute; reflexivity|]. split; [vm_compute; reflexivity|]. split; [constructor|].
  assert (Hd : forall k b, delivered Rd (logd [conf [svc_of "S"; auth_svc]; VAnswer 2 0 1]) k b -> b = tx "S1").
  { intros k b (l1 & t & z & l2 & body & ds & k0 & Hl & _ & Hb & Hr & Hi & _).
    assert (Hz : z = 1%N /\ t = 2%N).
    { assert (Hin : In (RvAnswer t 0 z) (logd [conf [svc_of "S"; auth_svc]; VAnswer 2 0 1])) by (rewrite Hl; apply in_or_app; right; now left).
      vm_compute in Hin. repeat (destruct Hin as [Hin|Hin]; [try discriminate; injection Hin as <- <-; now split|]). destruct Hin. }
    destruct Hz as [-> ->]. cbn in Hb. injection Hb as <-. vm_compute in Hr. injection Hr as <-. destruct Hi as [Hi|[]]. now injection Hi as <- <-. }
  split; [|split; [exact Hd|]].
  - exists [], 2%N, 1%N. eexists _, _, _, kS. split; [vm_compute; reflexivity|]. split; [|do 3 (split; [vm_compute; try reflexivity; now left|]); now split].
    eexists [_], _, _, _. split; [vm_compute; reflexivity|]. split; [now left|]. intros s z [H|[]]. discriminate.
  - assert (Hs : forall b, seen Rd (logd [conf [svc_of "S"; auth_svc]; VAnswer 2 0 1]) b -> b = tx "RL" \/ b = tx "AU" \/ b = tx "S1").
    { intros b [H|[H|[k H]]]; [now left|now right; left|right; right; now apply (Hd k)]. }
    intros a b Ha Hb. apply Hs in Ha, Hb. destruct Ha as [->|[->| ->]], Hb as [->|[->| ->]]; vm_compute; congruence.
Qed.
(** a descriptor that does not load resolves nothing, and the service is asked for again *)
Example C62_ex2 : let h := [conf [svc_of "S"]; VAnswer 2 0 4] in poold h kS = None /\ dget kS (dm_desc (ro_dm (v_root (rund h)))) = Some DMissing.
Proof. vm_compute. easy. Qed.

(** C60 as stated is false: a descriptor for a built-in service that comes, unasked, before
    the service is configured is used instead of the built-in one. *)
Theorem C60_builtin_replaced_before_use_refuted : exists R E Es h1 cfg k b b',
  embedded_ok R /\ v_dead (vrun R E Es h1) = false /\ try_from E cfg <> None /\ names cfg k /\ builtin R (snd k) b /\
  get_pool k (ro_dm (v_root (vrun R E Es (h1 ++ [VConfigure (Some cfg)])))) = Some b' /\ b' <> b.
Proof.
  exists Rd, Ed, (fun _ => Ed), [conf [svc_of "S"]; VAnswer 2 0 3], (cfg_of [auth_svc] "true"), kA, (tx "AU"), (tx "own").
  split; [now split|]. split; [vm_compute; reflexivity|]. split; [vm_compute; congruence|].
  split; [eexists _, _; split; [left; reflexivity|split; reflexivity]|]. split; [constructor|]. split; [vm_compute; reflexivity|]. vm_compute. congruence.
Qed.
(** the same history without the unasked descriptor *)
Example C60_ex : let h := [conf [svc_of "S"]; VAnswer 2 0 1; conf [auth_svc]; VAnswer 9 0 3] in poold h kA = Some (tx "AU") /\ poold h kS = Some (tx "S1").
Proof. vm_compute. easy. Qed.

(** C82 as stated is false in three ways.  A service that only a rejected configuration
    named is asked for: *)
Theorem C82_rejected_service_is_requested_refuted : exists R E Es h1 cfg h2 c ks o l k,
  try_from E cfg <> None /\ (forall cfg', In (VConfigure (Some cfg')) h2 -> try_from E cfg' = None) /\
  ro_log (v_root (vrun R E Es (h1 ++ VConfigure (Some cfg) :: h2))) = RvFetch c ks o :: l /\ In k ks /\ ~ names cfg k.
Proof.
  exists Rd, Ed, (fun _ => Ed), [], (cfg_of [svc_of "S"] "true"), [VAnswer 2 0 1; VConfigure (Some (cfg_of [svc_of "T"] "!!")); VTick], (tx "ctrl"), [kT].
  eexists _, _, kT. split; [vm_compute; congruence|]. split.
  { intros cfg' [H|[H|[H|[]]]]; try discriminate. injection H as <-. vm_compute. reflexivity. }
  split; [vm_compute; reflexivity|]. split; [now left|]. intros (n & sc & [H|[]] & _ & H'). injection H as <- <-. discriminate.
Qed.
(** A service that was removed from the configuration is still asked for: *)
Theorem C82_removed_service_is_requested_refuted : exists R E Es h cfg c ks o l k,
  try_from E cfg <> None /\ ro_log (v_root (vrun R E Es (h ++ [VConfigure (Some cfg); VTick]))) = RvFetch c ks o :: l /\ In k ks /\ ~ names cfg k.
Proof.
  exists (mkRenv num (tx "RL") (tx "AU") (fun _ => true) (fun _ _ => true) (fun _ => None) (fun _ _ _ => None) (fun _ _ => None) (fun _ _ => true)),
    Ed, (fun _ => Ed), [conf [svc_of "S"]], (cfg_of [auth_svc] "true"), (tx "ctrl"), [kS].
  eexists _, _, kS. split; [vm_compute; congruence|]. split; [vm_compute; reflexivity|]. split; [now left|].
  intros (n & sc & [H|[]] & _ & H'). injection H as <- <-. discriminate.
Qed.
(** A service nobody asked for gets a descriptor: *)
Theorem C82_unrequested_service_is_resolved_refuted : exists R E Es h k b,
  embedded_ok R /\ (forall b, ~ builtin R (snd k) b) /\ get_pool k (ro_dm (v_root (vrun R E Es h))) = Some b /\
  forall c ks o, In (RvFetch c ks o) (ro_log (v_root (vrun R E Es h))) -> ~ In k ks.
Proof.
  exists Rd, Ed, (fun _ => Ed), [conf [svc_of "S"]; VAnswer 2 0 2], kT, (tx "T2"). split; [now split|]. split; [intros b H; inversion H|].
  split; [vm_compute; reflexivity|]. intros c ks o H. vm_compute in H. repeat (destruct H as [H|H]; [try discriminate; injection H as _ <- _; intros [H|[]]; discriminate|]). destruct H.
Qed.
Example C82_ex : exists l1 l2, logd [conf [svc_of "S"; auth_svc]; VAnswer 2 14 0; VTick] = l1 ++ RvFetch (tx "ctrl") [kS] (Some 6%N) :: l2.
Proof. exists []. eexists. vm_compute. reflexivity. Qed.

(** two requests and three configurations, the second of which does not compile *)
Definition other : plugin_cfg := mkPlugin [] [] [mkSet (tx "s") [tx "h"] [] [CTyped (dhdr "true" false)]] None None (tx "ctrl").
Example C63_ex : let h := [conf []; VCreate 7; VConfigure (Some (cfg_of [] "!!")); VHttp 7 InReqHeaders; VCreate 8; VConfigure (Some other); VCreate 9;
                           VHttp 9 InReqHeaders; VHttp 8 InReqHeaders] in
  let sent id := match aget N.eqb id (v_ctxs (rund h)) with Some (_, f) => filter (fun e => match e with EvReply _ _ _ _ | EvSetMap _ _ _ => true | _ => false end) (f_log f) | None => [] end in
  v_dead (rund h) = false /\ try_from Ed (cfg_of [] "!!") = None /\ try_from Ed (cfg_of [] "true") <> None /\
  sent 7%N = [EvReply 403 [] (Some (tx "no")) true] /\ sent 8%N = sent 7%N /\ map (fun e => match e with EvSetMap _ _ _ => true | _ => false end) (sent 9%N) = [true].
Proof. vm_compute. repeat split; congruence. Qed.

Print Assumptions C60_resolved_services_stay_resolved.
Print Assumptions C60_builtin_descriptors_stay_partial.
Print Assumptions C61_one_fetch_in_flight.
Print Assumptions C61_unresolved_services_are_requested_again.
Print Assumptions C61_timer_runs.
Print Assumptions C62_descriptors_come_from_answers.
Print Assumptions C63_requests_keep_their_configuration.
Print Assumptions C63_rejected_configuration_changes_no_request.
Print Assumptions C82_only_configured_services_are_requested_partial.
