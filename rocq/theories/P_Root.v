(** The root context: steps of the descriptor manager and what its state says about the
    history. *)
From Coq Require Import String List NArith Bool Ascii Lia.
From Verif Require Import Base Value Headers AttrPath Ctx CelProps CelEval Sse Body Tasks Exec Config Legacy Blueprint Factory Filter Root.
Import ListNotations.
Open Scope list_scope.

Lemma dkey_eqb_eq a b : dkey_eqb a b = true <-> a = b.
Proof.
  destruct a as [a1 a2], b as [b1 b2]. unfold dkey_eqb. cbn. rewrite andb_true_iff, !text_eqb_eq. split; [intros [-> ->]|intros [= -> ->]]; easy.
Qed.
Lemma dkey_eq_dec (a b : dkey) : {a = b} + {a <> b}.
Proof. destruct (dkey_eqb a b) eqn:H; [left; now apply dkey_eqb_eq|right; intros ->]. now rewrite (proj2 (dkey_eqb_eq b b) eq_refl) in H. Qed.
Definition dget_dset_same := @aget_aset_same dkey dstate dkey_eqb dkey_eqb_eq.
Definition dget_dset_other := @aget_aset_other dkey dstate dkey_eqb dkey_eqb_eq.

Lemma or_insert_get {K V} eqb (eqb_eq : forall a b : K, eqb a b = true <-> a = b) k k' (v : V) m :
  aget eqb k' (or_insert eqb k v m) = match aget eqb k' m with Some x => Some x | None => if eqb k' k then Some v else None end.
Proof.
  unfold or_insert. destruct (eqb k' k) eqn:He.
  - apply eqb_eq in He as ->. destruct (aget eqb k m) eqn:Hg; [now rewrite Hg|]. now apply aget_aset_same.
  - assert (Hn : k' <> k) by (intros ->; now rewrite (proj2 (eqb_eq k k) eq_refl) in He).
    destruct (aget eqb k m); [destruct (aget eqb k' m); reflexivity|].
    rewrite (aget_aset_other eqb eqb_eq _ _ _ _ Hn). destruct (aget eqb k' m); reflexivity.
Qed.
Lemma or_insert_nodup {K V} eqb (eqb_eq : forall a b : K, eqb a b = true <-> a = b) k (v : V) m : NoDup (map fst m) -> NoDup (map fst (or_insert eqb k v m)).
Proof. intros H. unfold or_insert. destruct (aget eqb k m); [easy|]. now apply (NoDup_aset eqb eqb_eq). Qed.

(** * Histories *)

(** the fetch [t] asked for [k] and has not been answered *)
Definition open_for (l : rlog) (k : dkey) (t : N) : Prop :=
  exists l1 cluster ks l2, l = l1 ++ RvFetch cluster ks (Some t) :: l2 /\ In k ks /\ forall s z, ~ In (RvAnswer t s z) l1.

(** a valid descriptor for [k] came with a successful answer to an outstanding fetch *)
Definition delivered (R : renv) (l : rlog) (k : dkey) (b : text) : Prop :=
  exists l1 t z l2 body ds k0, l = l1 ++ RvAnswer t 0 z :: l2 /\ open_for l2 k0 t /\
    r_body R (RvAnswer t 0 z :: l2) z = Some body /\ r_response R body = Some ds /\ In (k, b) ds /\
    r_pool R b = true /\ r_has R b (snd k) = true.

(** bytes of a pool: built in, or delivered *)
Definition seen (R : renv) (l : rlog) (b : text) : Prop :=
  b = r_ratelimit R \/ b = r_auth R \/ exists k, delivered R l k b.

Lemma open_more l k t l' : open_for l k t -> (forall s z, ~ In (RvAnswer t s z) l') -> open_for (l' ++ l) k t.
Proof.
  intros (l1 & c & ks & l2 & -> & Hk & Hn) Hl. exists (l' ++ l1), c, ks, l2. split; [now rewrite app_assoc|]. split; [easy|].
  intros s z Hi. apply in_app_or in Hi as [Hi|Hi]; [now apply (Hl s z)|now apply (Hn s z)].
Qed.
Lemma open_inv e l k t : open_for (e :: l) k t ->
  (exists c ks, e = RvFetch c ks (Some t) /\ In k ks) \/ open_for l k t /\ (forall s z, e <> RvAnswer t s z).
Proof.
  intros ([|e' l1] & c & ks & l2 & H & Hk & Hn); cbn in H; injection H as -> ->.
  - left. eauto.
  - right. split; [|intros s z ->; apply (Hn s z); now left]. exists l1, c, ks, l2. repeat split; try easy. intros s z Hi. apply (Hn s z). now right.
Qed.
Lemma delivered_more R l k b l' : delivered R l k b -> delivered R (l' ++ l) k b.
Proof. intros (l1 & t & z & l2 & body & ds & k0 & -> & H). exists (l' ++ l1), t, z, l2, body, ds, k0. split; [now rewrite app_assoc|easy]. Qed.
Lemma delivered_cons R e l k b : delivered R l k b -> delivered R (e :: l) k b.
Proof. apply (delivered_more R l k b [e]). Qed.
Lemma seen_cons R e l b : seen R l b -> seen R (e :: l) b.
Proof. intros [H|[H|[k H]]]; [now left|now right; left|right; right; exists k; now apply delivered_cons]. Qed.

(** * Steps of the manager *)

Inductive dstep (R : renv) : dman * rlog -> dman * rlog -> Prop :=
| ds_emit m l e : match e with RvConfigure _ | RvTick | RvConfigs | RvSetTick _ _ => True | _ => False end ->
    dstep R (m, l) (m, e :: l)
| ds_expect m l k cfg : In (RvConfigure (Some cfg)) l -> In k (expected (pc_services cfg)) -> dstep R (m, l) (add_expected k m, l)
| ds_service m l s : dstep R (m, l) (set_descriptor_service s m, l)
| ds_fetch m l : dstep R (m, l) (fetch_missing R m l)
| ds_answer m l t s z :
    dstep R (m, l)
      (reset_pending t (if N.eqb s 0 then match r_body R (RvAnswer t s z :: l) z with Some b => handle_response R t b m | None => m end else m),
       RvAnswer t s z :: l).
Inductive dstar (R : renv) : dman * rlog -> dman * rlog -> Prop :=
| dst_refl s : dstar R s s
| dst_step s s' s'' : dstep R s s' -> dstar R s' s'' -> dstar R s s''.

Definition rs (r : root) : dman * rlog := (ro_dm r, ro_log r).

Lemma dstar_trans R a b c : dstar R a b -> dstar R b c -> dstar R a c.
Proof. induction 1 as [|a b' b H1 H2 IH]; [easy|]. intros H. econstructor; [exact H1|auto]. Qed.
Lemma dstar_one R a b : dstep R a b -> dstar R a b.
Proof. intros H. econstructor; [exact H|constructor]. Qed.

Lemma expect_star R cfg l ks : In (RvConfigure (Some cfg)) l -> incl ks (expected (pc_services cfg)) ->
  forall m, dstar R (m, l) (fold_left (fun m k => add_expected k m) ks m, l).
Proof.
  intros Hc. induction ks as [|k ks IH]; intros Hi m; cbn; [constructor|].
  econstructor; [apply (ds_expect R m l k cfg Hc), Hi; now left|]. apply IH. intros x Hx. apply Hi. now right.
Qed.

Lemma settick_star R on r : dstar R (rs r) (rs (set_tick_enabled R on r)).
Proof. unfold set_tick_enabled. destruct (Bool.eqb on (ro_tick r)); [constructor|]. apply dstar_one. unfold rs. cbn. now constructor. Qed.
Lemma settick_factory R on r : ro_factory (set_tick_enabled R on r) = ro_factory r /\ ro_dm (set_tick_enabled R on r) = ro_dm r.
Proof. unfold set_tick_enabled. now destruct (Bool.eqb on (ro_tick r)). Qed.

Lemma configure_star R E c r : dstar R (rs r) (rs (on_configure R E c r)).
Proof.
  unfold on_configure, r_emit, rs. cbn [ro_factory ro_dm ro_tick ro_log].
  eapply dst_step; [now apply (ds_emit R _ _ (RvConfigure c))|]. eapply dst_step; [now apply (ds_emit R _ _ RvConfigs)|].
  destruct c as [cfg|]; [|constructor]. unfold process_config. cbn [ro_factory ro_dm ro_tick ro_log].
  eapply dstar_trans; [apply (expect_star R cfg _ (expected (pc_services cfg))); [cbn; auto|apply incl_refl]|].
  set (m := fold_left _ _ _). set (l := RvConfigs :: RvConfigure (Some cfg) :: ro_log r).
  destruct (try_from E cfg) as [fa|]; [|constructor].
  eapply dst_step; [apply (ds_service R m l (pc_descriptor_service cfg))|].
  set (m1 := set_descriptor_service _ m).
  destruct (has_expected m1).
  - pose proof (ds_fetch R m1 l) as Hf. destruct (fetch_missing R m1 l) as [m2 l2]. eapply dst_step; [exact Hf|]. apply (settick_star R true (mkRoot fa m2 (ro_tick r) l2)).
  - apply (settick_star R false (mkRoot fa m1 (ro_tick r) l)).
Qed.
Lemma tick_star R r : dstar R (rs r) (rs (on_tick R r)).
Proof.
  unfold on_tick, r_emit, rs. cbn [ro_factory ro_dm ro_tick ro_log].
  eapply dst_step; [now apply (ds_emit R _ _ RvTick)|]. pose proof (ds_fetch R (ro_dm r) (RvTick :: ro_log r)) as Hf.
  destruct (fetch_missing R _ _) as [m l]. now apply dstar_one.
Qed.
Lemma answer_star R t s z r : dstar R (rs r) (rs (on_answer R t s z r)).
Proof. apply dstar_one. unfold on_answer, r_emit, rs. cbn [ro_factory ro_dm ro_tick ro_log with_dm]. apply ds_answer. Qed.

Lemma vrun_snoc R E Es l i : vrun R E Es (l ++ [i]) = vstep R E Es (vrun R E Es l) i.
Proof. unfold vrun. now rewrite fold_left_app. Qed.
Lemma vrun_app R E Es l1 l2 : vrun R E Es (l1 ++ l2) = fold_left (vstep R E Es) l2 (vrun R E Es l1).
Proof. unfold vrun. now rewrite fold_left_app. Qed.

Lemma vstep_star R E Es v i : dstar R (rs (v_root v)) (rs (v_root (vstep R E Es v i))).
Proof.
  unfold vstep. destruct (v_dead v); [constructor|].
  destruct i as [c| |t s z|id|id j]; cbn [v_root]; try constructor; try apply configure_star; try apply tick_star; try apply answer_star.
  destruct (aget N.eqb id (v_ctxs v)) as [[fa f]|]; constructor.
Qed.
Lemma vsteps_star R E Es l : forall v, dstar R (rs (v_root v)) (rs (v_root (fold_left (vstep R E Es) l v))).
Proof. induction l as [|i l IH]; intros v; cbn; [constructor|]. eapply dstar_trans; [apply vstep_star|apply IH]. Qed.
Lemma vrun_star R E Es l : dstar R (dman0 R, []) (rs (v_root (vrun R E Es l))).
Proof. exact (vsteps_star R E Es l (vm0 R)). Qed.

Lemma dstar_inv R (P : dman * rlog -> Prop) : (forall s s', dstep R s s' -> P s -> P s') -> forall s s', dstar R s s' -> P s -> P s'.
Proof. intros H s s'. induction 1 as [|a b c H1 H2 IH]; [easy|]. intros Ha. apply IH. now apply (H a). Qed.

(** * Reading the state after a step *)

Lemma dget_expect k k0 m : dget k (dm_desc (add_expected k0 m)) =
  match dget k (dm_desc m) with
  | Some x => Some x
  | None => if dkey_eqb k k0 then Some (match tget (snd k0) (dm_embedded m) with Some h => DEmbedded h | None => DMissing end) else None
  end.
Proof. unfold add_expected, with_desc. cbn [dm_desc]. apply (or_insert_get _ dkey_eqb_eq). Qed.

Lemma dget_In k (st : dstate) d : NoDup (map fst d) -> In (k, st) d -> dget k d = Some st.
Proof.
  induction d as [|[k' s'] d IH]; cbn; [easy|]. intros Hn [H|H]; inversion Hn as [|? ? Hx Hd]; subst.
  - injection H as -> ->. now rewrite (proj2 (dkey_eqb_eq k k) eq_refl).
  - destruct (dkey_eqb k k') eqn:He; [|now apply IH]. apply dkey_eqb_eq in He as ->. destruct Hx. now apply (in_map fst) in H.
Qed.
Lemma In_missing k m : NoDup (map fst (dm_desc m)) -> (In k (get_missing m) <-> dget k (dm_desc m) = Some DMissing).
Proof.
  intros Hn. unfold get_missing. rewrite in_map_iff. split.
  - intros ([k' st] & <- & H). apply filter_In in H as [H1 H2]. cbn in *. destruct st; try discriminate. now apply dget_In.
  - intros H. exists (k, DMissing). split; [easy|]. apply filter_In. split; [|easy]. now apply (aget_In dkey_eqb dkey_eqb_eq).
Qed.

Lemma dget_pend k tok ks : forall d, dget k (fold_left (fun d k => dset k (DPending tok) d) ks d) = if existsb (dkey_eqb k) ks then Some (DPending tok) else dget k d.
Proof.
  induction ks as [|k0 ks IH]; intros d; cbn; [easy|]. rewrite IH. destruct (dkey_eqb k k0) eqn:He; cbn.
  - apply dkey_eqb_eq in He as ->. rewrite dget_dset_same. now destruct (existsb _ ks).
  - rewrite dget_dset_other; [easy|]. intros ->. now rewrite (proj2 (dkey_eqb_eq k0 k0) eq_refl) in He.
Qed.
Lemma existsb_key k ks : existsb (dkey_eqb k) ks = true <-> In k ks.
Proof. rewrite existsb_exists. split; [intros (x & Hx & He); now apply dkey_eqb_eq in He as ->|intros H; exists k; split; [easy|now apply dkey_eqb_eq]]. Qed.
Lemma nodup_pend tok ks : forall d, NoDup (map fst d) -> NoDup (map fst (fold_left (fun d k => dset k (DPending tok) d) ks d)).
Proof. induction ks as [|k ks IH]; intros d H; cbn; [easy|]. apply IH. now apply (NoDup_aset dkey_eqb dkey_eqb_eq). Qed.

Lemma dget_reset k tok (d : list (dkey * dstate)) : dget k (map (fun ks => (fst ks, reset_state tok (snd ks))) d) = option_map (reset_state tok) (dget k d).
Proof. induction d as [|[k' s] d IH]; cbn; [easy|]. now destruct (dkey_eqb k k'). Qed.
Lemma keys_reset tok d : map fst (map (fun ks : dkey * dstate => (fst ks, reset_state tok (snd ks))) d) = map fst d.
Proof. rewrite map_map. now apply map_ext. Qed.

(** * The invariant *)

Definition registered (l : rlog) (k : dkey) : Prop :=
  exists cfg, In (RvConfigure (Some cfg)) l /\ In k (expected (pc_services cfg)).
Lemma registered_cons e l k : registered l k -> registered (e :: l) k.
Proof. intros (cfg & H & H'). exists cfg. split; [now right|easy]. Qed.

Definition state_ok (R : renv) (m : dman) (l : rlog) (k : dkey) (st : dstate) : Prop :=
  match st with
  | DEmbedded h => tget (snd k) (dm_embedded m) = Some h
  | DMissing => tget (snd k) (dm_embedded m) = None /\ registered l k
  | DPending t => tget (snd k) (dm_embedded m) = None /\ registered l k /\ open_for l k t
  | DResolved h => exists b, r_hash R b = h /\ delivered R l k b /\ aget N.eqb h (dm_pools m) <> None
  end.

Record D (R : renv) (s : dman * rlog) : Prop := {
  d_nodup : NoDup (map fst (dm_desc (fst s)));
  d_emb : dm_embedded (fst s) = dm_embedded (dman0 R);
  d_pools : forall h b, aget N.eqb h (dm_pools (fst s)) = Some b -> r_hash R b = h /\ r_pool R b = true /\ seen R (snd s) b;
  d_base : forall h b, aget N.eqb h (dm_pools (dman0 R)) = Some b -> aget N.eqb h (dm_pools (fst s)) = Some b;
  d_state : forall k st, dget k (dm_desc (fst s)) = Some st -> state_ok R (fst s) (snd s) k st;
  d_open : forall k t, open_for (snd s) k t -> exists st, dget k (dm_desc (fst s)) = Some st /\ (st = DPending t \/ exists h, st = DResolved h);
  d_fetch : forall l1 c ks o l2 k, snd s = l1 ++ RvFetch c ks o :: l2 -> In k ks ->
              registered l2 k /\ tget (snd k) (dm_embedded (dman0 R)) = None /\ forall t, ~ open_for l2 k t }.

Lemma N_eqb_eq' a b : N.eqb a b = true <-> a = b. Proof. apply N.eqb_eq. Qed.

Lemma base_pools R h b : aget N.eqb h (dm_pools (dman0 R)) = Some b -> r_hash R b = h /\ r_pool R b = true /\ (b = r_ratelimit R \/ b = r_auth R).
Proof.
  unfold dman0. destruct (r_pool R (r_auth R)) eqn:Ha, (r_pool R (r_ratelimit R)) eqn:Hr; cbn [register_embedded dm_pools];
    rewrite ?(or_insert_get N.eqb N_eqb_eq'); cbn [aget];
    repeat match goal with |- context [N.eqb ?a ?b] => destruct (N.eqb_spec a b) as [->|] end; intros [= <-]; auto.
Qed.
Lemma base_emb R s h : tget s (dm_embedded (dman0 R)) = Some h -> aget N.eqb h (dm_pools (dman0 R)) <> None.
Proof.
  unfold dman0. destruct (r_pool R (r_auth R)), (r_pool R (r_ratelimit R)); cbn [register_embedded dm_pools dm_embedded];
    rewrite ?(or_insert_get N.eqb N_eqb_eq'); cbn [aget]; intros H.
  - destruct (text_eq_dec s auth_service) as [->|H1]; [rewrite (aget_aset_same text_eqb text_eqb_eq) in H; injection H as <-|].
    { rewrite N.eqb_refl. now destruct (N.eqb _ _). }
    rewrite (aget_aset_other text_eqb text_eqb_eq) in H by easy.
    destruct (text_eq_dec s kuadrant_ratelimit_service) as [->|H2]; [rewrite (aget_aset_same text_eqb text_eqb_eq) in H; injection H as <-; now rewrite N.eqb_refl|].
    rewrite (aget_aset_other text_eqb text_eqb_eq) in H by easy. cbn [aset aget] in H. destruct (text_eqb s ratelimit_service); [injection H as <-; now rewrite N.eqb_refl|discriminate].
  - destruct (text_eq_dec s auth_service) as [->|H1]; [rewrite (aget_aset_same text_eqb text_eqb_eq) in H; injection H as <-; now rewrite N.eqb_refl|].
    rewrite (aget_aset_other text_eqb text_eqb_eq) in H by easy. discriminate.
  - destruct (text_eq_dec s kuadrant_ratelimit_service) as [->|H2]; [rewrite (aget_aset_same text_eqb text_eqb_eq) in H; injection H as <-; now rewrite N.eqb_refl|].
    rewrite (aget_aset_other text_eqb text_eqb_eq) in H by easy. cbn [aset aget] in H. destruct (text_eqb s ratelimit_service); [injection H as <-; now rewrite N.eqb_refl|discriminate].
  - discriminate.
Qed.

Lemma D_init R : D R (dman0 R, []).
Proof.
  assert (Hd : dm_desc (dman0 R) = []) by (unfold dman0; destruct (r_pool R (r_auth R)), (r_pool R (r_ratelimit R)); reflexivity).
  constructor; cbn [fst snd]; rewrite ?Hd; try easy; try constructor.
  - now apply base_pools in H.
  - apply base_pools in H as (_ & H & H'). split; [easy|]. unfold seen. tauto.
  - intros k t (l1 & c & ks & l2 & H & _). now destruct l1.
  - now destruct l1.
  - now destruct l1.
Qed.

Lemma state_cons R m e l k st : (forall t s z, e = RvAnswer t s z -> st <> DPending t) -> state_ok R m l k st -> state_ok R m (e :: l) k st.
Proof.
  intros He. destruct st as [h| |t|h]; cbn.
  - easy.
  - intros [H1 H2]. split; [easy|now apply registered_cons].
  - intros (H1 & H2 & H3). split; [easy|]. split; [now apply registered_cons|]. apply (open_more l k t [e] H3). intros s z [H|[]]. now apply (He t s z).
  - intros (b & H1 & H2 & H3). exists b. split; [easy|]. split; [now apply delivered_cons|easy].
Qed.

Lemma fetch_cons R l e : (forall c ks o, e <> RvFetch c ks o) ->
  (forall l1 c ks o l2 k, l = l1 ++ RvFetch c ks o :: l2 -> In k ks -> registered l2 k /\ tget (snd k) (dm_embedded (dman0 R)) = None /\ forall t, ~ open_for l2 k t) ->
  forall l1 c ks o l2 k, e :: l = l1 ++ RvFetch c ks o :: l2 -> In k ks -> registered l2 k /\ tget (snd k) (dm_embedded (dman0 R)) = None /\ forall t, ~ open_for l2 k t.
Proof. intros He H [|e' l1] c ks o l2 k Hl Hk; cbn in Hl; injection Hl as -> Hl; [now destruct (He c ks o)|]. now apply (H l1 c ks o l2 k). Qed.

Lemma D_emit R m l e : match e with RvConfigure _ | RvTick | RvConfigs | RvSetTick _ _ => True | _ => False end -> D R (m, l) -> D R (m, e :: l).
Proof.
  intros He [H1 H2 H3 H4 H5 H6 H7]. cbn [fst snd] in *. constructor; cbn [fst snd]; try easy.
  - intros h b H. destruct (H3 h b H) as (A & B & C). split; [easy|]. split; [easy|now apply seen_cons].
  - intros k st H. apply state_cons; [intros t s z ->; destruct He|now apply H5].
  - intros k t H. apply open_inv in H as [(c & ks & -> & _)|[H _]]; [destruct He|now apply H6].
  - apply fetch_cons; [intros c ks o ->; destruct He|easy].
Qed.

Lemma D_expect R m l k cfg : In (RvConfigure (Some cfg)) l -> In k (expected (pc_services cfg)) -> D R (m, l) -> D R (add_expected k m, l).
Proof.
  intros Hc Hk [H1 H2 H3 H4 H5 H6 H7]. cbn [fst snd] in *. constructor; cbn [fst snd]; try easy.
  - unfold add_expected, with_desc. cbn. now apply (or_insert_nodup dkey_eqb dkey_eqb_eq).
  - intros k' st. rewrite dget_expect. destruct (dget k' (dm_desc m)) as [x|] eqn:Hx; [intros [= <-]; now apply H5 in Hx|].
    destruct (dkey_eqb k' k) eqn:He; [|discriminate]. apply dkey_eqb_eq in He as ->. intros [= <-].
    destruct (tget (snd k) (dm_embedded m)) as [h|] eqn:Ht; cbn; [easy|]. split; [easy|]. now exists cfg.
  - intros k' t H. destruct (H6 k' t H) as (st & Hs & Hst). exists st. rewrite dget_expect, Hs. easy.
Qed.

Lemma D_service R m l s : D R (m, l) -> D R (set_descriptor_service s m, l).
Proof. intros [H1 H2 H3 H4 H5 H6 H7]. now constructor. Qed.

Lemma D_fetch R m l : D R (m, l) -> D R (fetch_missing R m l).
Proof.
  intros HD. pose proof HD as [H1 H2 H3 H4 H5 H6 H7]. cbn [fst snd] in *. unfold fetch_missing.
  destruct (get_missing m) as [|k0 ks0] eqn:Hm; [easy|]. rewrite <- Hm. clear k0 ks0 Hm.
  destruct (dm_service m) as [c|]; [|easy].
  assert (Hmiss : forall k, In k (get_missing m) <-> dget k (dm_desc m) = Some DMissing) by (intros k; now apply In_missing).
  assert (Hnew : forall o l1 c' ks o' l2 k, RvFetch c (get_missing m) o :: l = l1 ++ RvFetch c' ks o' :: l2 -> In k ks ->
     registered l2 k /\ tget (snd k) (dm_embedded (dman0 R)) = None /\ forall t, ~ open_for l2 k t).
  { intros o [|e l1] c' ks o' l2 k Hl Hk; cbn in Hl; injection Hl as Hl1 Hl2; [|now apply (H7 l1 c' ks o' l2 k)].
    subst. apply Hmiss in Hk. destruct (H5 k DMissing Hk) as [Ha Hb]. rewrite H2 in Ha. split; [easy|]. split; [easy|].
    intros t Ho. destruct (H6 k t Ho) as (st & Hs & [->|[h ->]]); congruence. }
  destruct (r_dispatch R l c (get_missing m)) as [tok|].
  - constructor; cbn [fst snd with_desc dm_desc dm_pools dm_embedded]; try easy.
    + now apply nodup_pend.
    + intros h b H. destruct (H3 h b H) as (A & B & C). split; [easy|]. split; [easy|now apply seen_cons].
    + intros k st. rewrite dget_pend. destruct (existsb _ _) eqn:He.
      * intros [= <-]. apply existsb_key in He. pose proof He as He'. apply Hmiss in He. apply H5 in He as [Ha Hb]. cbn. split; [easy|]. split; [now apply registered_cons|].
        exists [], c, (get_missing m), l. repeat split; try easy.
      * intros Hs. assert (Hst := H5 k st Hs). apply (state_cons R m (RvFetch c (get_missing m) (Some tok)) l k st); [discriminate|]. exact Hst.
    + intros k t H. rewrite dget_pend. apply open_inv in H as [(c' & ks & Hf & Hk)|[H _]].
      * injection Hf as -> -> ->. rewrite (proj2 (existsb_key _ _) Hk). eexists. split; [reflexivity|now left].
      * destruct (H6 k t H) as (st & Hs & Hst). destruct (existsb _ _) eqn:He; [|now exists st].
        apply existsb_key, Hmiss in He. rewrite Hs in He. injection He as ->. destruct Hst as [?|[? ?]]; discriminate.
    + apply Hnew.
  - constructor; cbn [fst snd]; try easy.
    + intros h b H. destruct (H3 h b H) as (A & B & C). split; [easy|]. split; [easy|now apply seen_cons].
    + intros k st H. apply state_cons; [discriminate|now apply H5].
    + intros k t H. apply open_inv in H as [(c' & ks & Hf & _)|[H _]]; [discriminate|now apply H6].
    + apply Hnew.
Qed.

(** the descriptors of one answer, between the answer and the reset *)
Record H (R : renv) (tok : N) (l : rlog) (m : dman) : Prop := {
  h_nodup : NoDup (map fst (dm_desc m));
  h_emb : dm_embedded m = dm_embedded (dman0 R);
  h_pools : forall h b, aget N.eqb h (dm_pools m) = Some b -> r_hash R b = h /\ r_pool R b = true /\ seen R l b;
  h_base : forall h b, aget N.eqb h (dm_pools (dman0 R)) = Some b -> aget N.eqb h (dm_pools m) = Some b;
  h_state : forall k st, dget k (dm_desc m) = Some st -> st <> DPending tok -> state_ok R m l k st;
  h_state' : forall k, dget k (dm_desc m) = Some (DPending tok) -> tget (snd k) (dm_embedded m) = None /\ registered l k;
  h_open : forall k t, open_for l k t -> exists st, dget k (dm_desc m) = Some st /\ (st = DPending t \/ exists h, st = DResolved h) }.

Lemma H_take R tok l m d : H R tok l m -> (r_pool R (snd d) = true -> r_has R (snd d) (snd (fst d)) = true -> delivered R l (fst d) (snd d)) -> H R tok l (take_descriptor R m d).
Proof.
  intros HH Hd. destruct d as [k b]. unfold take_descriptor. cbn [fst snd] in *.
  destruct (r_pool R b) eqn:Hp; [|easy]. destruct (r_has R b (snd k)) eqn:Hh; [|easy]. specialize (Hd eq_refl eq_refl). cbn [andb].
  unfold insert_pool_from_bytes. destruct HH as [H1 H2 H3 H4 H5 H5' H6].
  assert (Hins : forall h b', aget N.eqb h (dm_pools m) = Some b' -> aget N.eqb h (or_insert N.eqb (r_hash R b) b (dm_pools m)) = Some b').
  { intros h b' Hb. now rewrite (or_insert_get N.eqb N_eqb_eq'), Hb. }
  assert (Hnew : (forall h, dget k (dm_desc m) <> Some (DEmbedded h)) -> H R tok l (mkDm (or_insert N.eqb (r_hash R b) b (dm_pools m)) (dm_embedded m) (dset k (DResolved (r_hash R b)) (dm_desc m)) (dm_service m))).
  { intros Hne. constructor; cbn [dm_desc dm_pools dm_embedded]; try easy.
    - now apply (NoDup_aset dkey_eqb dkey_eqb_eq).
    - intros h b'. rewrite (or_insert_get N.eqb N_eqb_eq'). destruct (aget N.eqb h (dm_pools m)) eqn:Hg; [intros [= <-]; now apply H3|].
      destruct (N.eqb_spec h (r_hash R b)) as [->|]; [|discriminate]. intros [= <-]. split; [easy|]. split; [easy|]. right; right. now exists k.
    - intros h b' Hb. now apply Hins, H4.
    - intros k' st. destruct (dkey_eq_dec k' k) as [->|Hn].
      + rewrite dget_dset_same. intros [= <-] _. cbn. exists b. split; [easy|]. split; [easy|]. rewrite (or_insert_get N.eqb N_eqb_eq'), N.eqb_refl. destruct (aget N.eqb (r_hash R b) (dm_pools m)); discriminate.
      + rewrite dget_dset_other by easy. intros Hs Ht. specialize (H5 k' st Hs Ht). destruct st; cbn in *; try easy.
        destruct H5 as (b' & A & B & C). exists b'. split; [easy|]. split; [easy|]. rewrite (or_insert_get N.eqb N_eqb_eq'). now destruct (aget N.eqb _ (dm_pools m)).
    - intros k'. destruct (dkey_eq_dec k' k) as [->|Hn]; [now rewrite dget_dset_same|]. rewrite dget_dset_other by easy. apply H5'.
    - intros k' t Ho. destruct (dkey_eq_dec k' k) as [->|Hn]; [rewrite dget_dset_same; eexists; split; [reflexivity|right; eauto]|].
      rewrite dget_dset_other by easy. now apply H6. }
  destruct (dget k (dm_desc m)) as [[h| |t|h]|] eqn:Hk; try (apply Hnew; discriminate). now constructor.
Qed.

Lemma D_answer R m l t s z : D R (m, l) ->
  D R (reset_pending t (if N.eqb s 0 then match r_body R (RvAnswer t s z :: l) z with Some b => handle_response R t b m | None => m end else m),
       RvAnswer t s z :: l).
Proof.
  intros [H1 H2 H3 H4 H5 H6 H7]. cbn [fst snd] in *.
  assert (HH : H R t (RvAnswer t s z :: l) m).
  { constructor; try easy.
    - intros h b Hb. destruct (H3 h b Hb) as (A & B & C). split; [easy|]. split; [easy|now apply seen_cons].
    - intros k st Hs Ht. apply state_cons; [intros t' s' z' [= <- <- <-]; easy|now apply H5].
    - intros k Hs. destruct (H5 k _ Hs) as (A & B & C). split; [easy|now apply registered_cons].
    - intros k t' Ho. apply open_inv in Ho as [(? & ? & Hf & _)|[Ho _]]; [discriminate|now apply H6]. }
  assert (HH' : H R t (RvAnswer t s z :: l) (if N.eqb s 0 then match r_body R (RvAnswer t s z :: l) z with Some b => handle_response R t b m | None => m end else m)).
  { destruct (N.eqb_spec s 0) as [->|]; [|exact HH]. destruct (r_body R _ z) as [body|] eqn:Hb; [|exact HH].
    unfold handle_response. destruct (existsb _ (dm_desc m)) eqn:He; [|exact HH].
    apply existsb_exists in He as ([k0 st0] & Hi & Hp). destruct st0 as [| |t0|]; try discriminate. cbn in Hp. apply N.eqb_eq in Hp as ->.
    apply dget_In in Hi; [|easy]. destruct (H5 _ _ Hi) as (_ & _ & Ho).
    destruct (r_response R body) as [ds|] eqn:Hr; [|exact HH].
    assert (Hall : forall d, In d ds -> r_pool R (snd d) = true -> r_has R (snd d) (snd (fst d)) = true -> delivered R (RvAnswer t 0 z :: l) (fst d) (snd d)).
    { intros [k b] Hd Hp1 Hp2. exists [], t, z, l, body, ds, k0. now repeat split. }
    clear - HH Hall. revert m HH. induction ds as [|d ds IH]; intros m HH; cbn; [exact HH|].
    apply IH; [intros d' Hd'; apply Hall; now right|]. apply H_take; [exact HH|]. apply Hall. now left. }
  set (m' := if N.eqb s 0 then _ else _) in *. clearbody m'. clear HH. destruct HH' as [A1 A2 A3 A4 A5 A5' A6].
  constructor; cbn [fst snd]; unfold reset_pending, with_desc; cbn [dm_desc dm_pools dm_embedded]; try easy.
  - now rewrite keys_reset.
  - intros k st. rewrite dget_reset. destruct (dget k (dm_desc m')) as [st'|] eqn:Hs; [|discriminate]. cbn. intros [= <-].
    destruct st' as [h| |t'|h]; try (now apply (A5 k _ Hs)).
    cbn. destruct (N.eqb_spec t' t) as [->|Hn]; [exact (A5' k Hs)|]. apply (A5 k _ Hs). congruence.
  - intros k t' Ho. pose proof Ho as Ho'. apply open_inv in Ho' as [(? & ? & Hf & _)|[_ Hnt]]; [discriminate|].
    destruct (A6 k t' Ho) as (st & Hs & Hst). rewrite dget_reset, Hs. cbn. exists (reset_state t st). split; [easy|].
    destruct Hst as [->|[h ->]]; [left|right; now exists h]. cbn. destruct (N.eqb_spec t' t) as [->|]; [|easy]. now destruct (Hnt s z).
  - apply fetch_cons; [discriminate|easy].
Qed.

Lemma D_step R s s' : dstep R s s' -> D R s -> D R s'.
Proof.
  destruct 1; intros HD.
  - now apply D_emit.
  - now apply D_expect with cfg.
  - now apply D_service.
  - now apply D_fetch.
  - now apply D_answer.
Qed.
Lemma D_star R s s' : dstar R s s' -> D R s -> D R s'.
Proof. apply dstar_inv. apply D_step. Qed.
Lemma D_run R E Es l : D R (rs (v_root (vrun R E Es l))).
Proof. eapply D_star; [apply vrun_star|apply D_init]. Qed.
