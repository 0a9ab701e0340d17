(** How the index of hosts is built and searched. *)
From Coq Require Import String Ascii List NArith ZArith Bool Lia Arith.
From Verif Require Import Base Value Headers AttrPath Ctx CelProps CelEval Sse Body Tasks Exec Config Legacy Blueprint Factory Filter
  P_Frame P_Apply P_Exec P_Run P_Inv P_Ids P_Plan P_Deps P_Order P_Term P_Bar P_Cfg P_Hist P_Grow P_Wake P_Fail P_Head P_Told P_Eff.
Import ListNotations.
Open Scope list_scope.

(** * The index *)
(** the text a configured host stands for in the index, not reversed *)
Definition form (h : text) : text := match h with "*"%char :: r => r ++ [dot] | _ => "$"%char :: h ++ [dot] end.
Lemma reverse_form h : reverse_subdomain h = rev (form h).
Proof. destruct h as [|c r]; [reflexivity|]. unfold reverse_subdomain, form. destruct c as [[] [] [] [] [] [] [] []]; reflexivity. Qed.
Definition entries (sets : list action_set) : list (text * action_set) :=
  flat_map (fun s => map (fun h => (h, s)) (as_hosts s)) sets.
Definition key (h : text) : text := reverse_subdomain (to_lower h).
(** the blueprint of a set *)
Definition bp_of (E : env) (svs : list (text * sinst)) (cfg : plugin_cfg) (s : action_set) : blueprint :=
  match compile_set E svs (cfg_rsrc E cfg) s with
  | Some bp => mkBp (bp_name bp) (bp_preds bp) (bp_actions bp ++ cfg_dev svs cfg)
  | None => mkBp [] [] []
  end.
Definition at_key (k : text) (l : list (text * action_set)) : list action_set :=
  map snd (filter (fun e => text_eqb (key (fst e)) k) l).
Definition holds_index (bpf : action_set -> blueprint) (ix : index) (l : list (text * action_set)) : Prop :=
  NoDup (map fst ix) /\ forall k, tget k ix = match at_key k l with [] => None | ss => Some (map bpf ss) end.

Lemma at_key_app k l1 l2 : at_key k (l1 ++ l2) = at_key k l1 ++ at_key k l2.
Proof. unfold at_key. now rewrite filter_app, map_app. Qed.
Lemma idx_add_holds bpf ix l h s : holds_index bpf ix l -> holds_index bpf (idx_add (bpf s) ix h) (l ++ [(h, s)]).
Proof.
  intros [Hn Hg]. split; [apply NoDup_aset; [apply text_eqb_eq|exact Hn]|]. intros k. unfold idx_add. fold (key h).
  rewrite at_key_app. unfold at_key at 2. cbn [filter fst].
  destruct (text_eq_dec k (key h)) as [->|Hne].
  - rewrite text_eqb_refl, (aget_aset_same text_eqb text_eqb_eq), Hg. cbn [map snd].
    destruct (at_key (key h) l) as [|x ss]; [reflexivity|]. cbn [app]. now rewrite app_comm_cons, map_app.
  - destruct (text_eqb (key h) k) eqn:He; [apply text_eqb_eq in He; congruence|].
    rewrite (aget_aset_other text_eqb text_eqb_eq) by exact Hne. cbn [map]. now rewrite app_nil_r.
Qed.
Lemma idx_adds_holds bpf s hs : forall ix l, holds_index bpf ix l ->
  holds_index bpf (fold_left (idx_add (bpf s)) hs ix) (l ++ map (fun h => (h, s)) hs).
Proof.
  induction hs as [|h hs IH]; intros ix l H; cbn [fold_left map]; [now rewrite app_nil_r|].
  replace (l ++ (h, s) :: map (fun h => (h, s)) hs) with ((l ++ [(h, s)]) ++ map (fun h => (h, s)) hs) by now rewrite <- app_assoc.
  apply IH. now apply idx_add_holds.
Qed.
Lemma try_from_index E cfg fa : try_from E cfg = Some fa ->
  exists svs, cfg_svs cfg = Some svs /\ holds_index (bp_of E svs cfg) (fa_index fa) (entries (pc_sets cfg)) /\
    (forall s, In s (pc_sets cfg) -> compile_set E svs (cfg_rsrc E cfg) s <> None) /\
    fa_fallback fa = match pc_identifier cfg with Some _ => Some (mkBp (tx "kuadrant.devMode") [] (cfg_dev svs cfg)) | None => None end.
Proof.
  unfold try_from. fold (cfg_svs cfg). destruct (cfg_svs cfg) as [svs|] eqn:Hs; [|discriminate]. cbv zeta.
  fold (cfg_rd E cfg). fold (cfg_rsrc E cfg). fold (cfg_tracing svs cfg).
  destruct (fold_left _ _ _) as [ix|] eqn:Hf; [|discriminate]. intros [= <-]. exists svs. split; [reflexivity|]. cbn [fa_index fa_fallback].
  assert (Hdev : match option_map (dev_action (cfg_tracing svs cfg)) (pc_identifier cfg) with Some a => [a] | None => [] end = cfg_dev svs cfg)
    by (unfold cfg_dev; now destruct (pc_identifier cfg)).
  assert (K : forall sets ix0 ix1 l0, holds_index (bp_of E svs cfg) ix0 l0 ->
    fold_left (add_set E svs (cfg_rsrc E cfg) (option_map (dev_action (cfg_tracing svs cfg)) (pc_identifier cfg))) sets (Some ix0) = Some ix1 ->
    holds_index (bp_of E svs cfg) ix1 (l0 ++ entries sets) /\ forall s, In s sets -> compile_set E svs (cfg_rsrc E cfg) s <> None).
  { induction sets as [|s sets IH]; intros ix0 ix1 l0 H0; cbn [fold_left].
    - intros [= <-]. cbn. rewrite app_nil_r. split; [exact H0|intros ? []].
    - unfold add_set at 2. destruct (compile_set E svs (cfg_rsrc E cfg) s) as [bp|] eqn:Hc.
      + cbv zeta. rewrite Hdev. intros H. apply IH with (l0 := l0 ++ map (fun h => (h, s)) (as_hosts s)) in H.
        * destruct H as [H1 H2]. split; [unfold entries; cbn [flat_map]; rewrite app_assoc; exact H1|]. intros s' [<-|Hi]; [congruence|auto].
        * pose proof (idx_adds_holds (bp_of E svs cfg) s (as_hosts s) ix0 l0 H0) as K. unfold bp_of at 2 in K. now rewrite Hc in K.
      + intros H. exfalso. clear -H. induction sets as [|s' sets IH]; simpl in H; [discriminate|auto]. }
  assert (K0 : holds_index (bp_of E svs cfg) [] []) by (split; [constructor|reflexivity]). destruct (K _ _ _ [] K0 Hf) as [K1 K2]. split; [exact K1|]. split; [exact K2|].
  unfold cfg_dev. destruct (pc_identifier cfg); reflexivity.
Qed.

(** * The search *)
Lemma In_tget {V} k (v : V) : forall m, NoDup (map fst m) -> In (k, v) m -> tget k m = Some v.
Proof.
  induction m as [|[k1 v1] m IH]; [intros _ []|]. cbn [map fst aget]. intros Hn. inversion Hn as [|? ? Hni Hn']; subst. intros [[= -> ->]|Hi].
  - now rewrite text_eqb_refl.
  - destruct (text_eqb k k1) eqn:He; [|auto]. apply text_eqb_eq in He. subst. destruct Hni. apply in_map_iff. now exists (k1, v).
Qed.
Lemma ancestor_spec h : forall ix, match ancestor h ix with
  | None => forall k v, In (k, v) ix -> ~ exists r, h = k ++ r
  | Some (k, v) => In (k, v) ix /\ (exists r, h = k ++ r) /\ forall k' v', In (k', v') ix -> (exists r, h = k' ++ r) -> length k' <= length k
  end.
Proof.
  induction ix as [|[k v] ix IH]; cbn [ancestor]; [intros ? ? []|].
  destruct (ancestor h ix) as [[k1 v1]|].
  - destruct IH as (I1 & I2 & I3). destruct (starts_with k h && (length k1 <? length k)) eqn:Hs.
    + apply andb_true_iff in Hs as [H1 H2]. apply starts_with_spec in H1. apply Nat.ltb_lt in H2. split; [now left|]. split; [exact H1|].
      intros k' v' [[= <- <-]|Hi] Hp; [lia|]. specialize (I3 _ _ Hi Hp). lia.
    + split; [now right|]. split; [exact I2|]. intros k' v' [[= <- <-]|Hi] Hp; [|eauto].
      apply starts_with_spec in Hp. rewrite Hp in Hs. cbn in Hs. apply Nat.ltb_ge in Hs. exact Hs.
  - destruct (starts_with k h) eqn:Hs.
    + apply starts_with_spec in Hs. split; [now left|]. split; [exact Hs|]. intros k' v' [[= <- <-]|Hi] Hp; [lia|]. now destruct (IH _ _ Hi).
    + intros k' v' [[= <- <-]|Hi] Hp; [apply starts_with_spec in Hp; congruence|]. now apply (IH _ _ Hi).
Qed.
Lemma prefix_unique {A} (h k k' : list A) : (exists r, h = k ++ r) -> (exists r, h = k' ++ r) -> length k = length k' -> k = k'.
Proof.
  intros (r & ->) (r' & H) Hl. revert k' Hl H. induction k as [|x k IH]; intros [|y k'] Hl H; try discriminate; [reflexivity|].
  injection H as -> H. f_equal. now apply IH; [injection Hl|].
Qed.
Lemma at_key_In k s l : In s (at_key k l) <-> exists h, In (h, s) l /\ key h = k.
Proof.
  unfold at_key. rewrite in_map_iff. split.
  - intros ([h s'] & <- & H). apply filter_In in H as [H1 H2]. apply text_eqb_eq in H2. now exists h.
  - intros (h & H1 & H2). exists (h, s). split; [reflexivity|]. apply filter_In. split; [exact H1|]. now apply text_eqb_eq.
Qed.
(** the sets found for a (lower-case, port-less) host *)
Lemma index_search bpf ix l h : holds_index bpf ix l ->
  match ancestor (reverse_subdomain h) ix with
  | None => forall p s, In (p, s) l -> ~ exists x, form h = x ++ form (to_lower p)
  | Some (_, bps) => exists p s, In (p, s) l /\ (exists x, form h = x ++ form (to_lower p)) /\
      (forall p' s', In (p', s') l -> (exists x, form h = x ++ form (to_lower p')) -> length (form (to_lower p')) <= length (form (to_lower p))) /\
      bps = map bpf (map snd (filter (fun e => text_eqb (form (to_lower (fst e))) (form (to_lower p))) l))
  end.
Proof.
  intros [Hn Hg].
  assert (Hpre : forall p, (exists r, reverse_subdomain h = key p ++ r) <-> exists x, form h = x ++ form (to_lower p)).
  { intros p. unfold key. rewrite !reverse_form. split; intros (r & H).
    - exists (rev r). apply (f_equal (@rev _)) in H. rewrite rev_app_distr, !rev_involutive in H. exact H.
    - exists (rev r). rewrite H, rev_app_distr. reflexivity. }
  assert (Hin : forall p s, In (p, s) l -> exists v, In (key p, v) ix).
  { intros p s Hi. specialize (Hg (key p)). destruct (at_key (key p) l) as [|x ss] eqn:Ha.
    - assert (Hx : In s (at_key (key p) l)) by (apply at_key_In; eauto). rewrite Ha in Hx. destruct Hx.
    - apply aget_In in Hg; [|apply text_eqb_eq]. eauto. }
  pose proof (ancestor_spec (reverse_subdomain h) ix) as Ha. destruct (ancestor (reverse_subdomain h) ix) as [[k bps]|].
  - destruct Ha as (A1 & A2 & A3).
    assert (Hk : tget k ix = Some bps) by now apply In_tget.
    rewrite Hg in Hk. destruct (at_key k l) as [|s ss] eqn:Hat; [discriminate|]. injection Hk as <-.
    assert (Hs : In s (at_key k l)) by (rewrite Hat; now left). apply at_key_In in Hs as (p & Hi & <-).
    exists p, s. split; [exact Hi|]. split; [now apply Hpre|]. split.
    + intros p' s' Hi' Hx. apply Hpre in Hx. destruct (Hin _ _ Hi') as (v & Hv). specialize (A3 _ _ Hv Hx).
      unfold key in A3. rewrite !reverse_form, !rev_length in A3. exact A3.
    + rewrite <- map_cons, <- Hat. unfold at_key. do 2 f_equal. apply filter_ext. intros [q t]. cbn [fst]. unfold key. rewrite !reverse_form.
      apply eq_true_iff_eq. rewrite !text_eqb_eq. split; [|now intros ->]. intros H. apply (f_equal (@rev _)) in H. now rewrite !rev_involutive in H.
  - intros p s Hi Hx. destruct (Hin _ _ Hi) as (v & Hv). apply (Ha _ _ Hv). now apply Hpre.
Qed.

(** * The predicates *)
(** the state in which routing starts; nothing is bound, stored or cached *)
Definition routing (id : text) (c0 : ctx) : Prop := id = [] /\ c0 = ctx0 [EvReqHeaders].
Definition rval (E : env) (p : expr) (b : bool) : Prop := exists pre, eval_to E routing [] pre p (VBool b) [EvReqHeaders].
Definition at_start (E : env) (c : ctx) : Prop := near E (ctx0 [EvReqHeaders]) c.
Lemma at_start_log E c : at_start E c -> c_log c = [EvReqHeaders]. Proof. apply near_log. Qed.
Lemma at_start_extf E c c' : extf E c c' -> at_start E c -> at_start E c'.
Proof. intros H1 H2. eapply near_trans; [exact H2|]. now apply extf_near. Qed.
Lemma at_start_scope E c : at_start E c -> scope_vars [] c = [].
Proof. intros ((_ & _ & _ & H) & _). unfold scope_vars. now rewrite H. Qed.
Lemma route_loop_val E ps : forall pre vs c r c', incoming E [] (ctx0 [EvReqHeaders]) pre c vs -> route_loop E ps vs c = (r, c') ->
  match r with
  | RAvail true => Forall (fun p => rval E p true) ps
  | RAvail false => Exists (fun p => rval E p false) ps
  | _ => True
  end.
Proof.
  induction ps as [|p ps IH]; intros pre vs c r c' Hin; cbn [route_loop]; [intros [= <- <-]; constructor|].
  destruct (test_in E p vs c) as [[r1 vs1] c1] eqn:H1.
  destruct r1 as [|b|]; try (intros [= <- <-]; exact Logic.I). destruct (test_val E routing _ _ _ _ _ _ _ _ _ (conj eq_refl eq_refl) Hin H1) as (P1 & _ & Hin1).
  rewrite (near_log _ _ _ (incoming_near _ _ _ _ _ _ Hin)) in P1. assert (Hr : rval E p b) by now exists pre. destruct b.
  - intros H. apply (IH _ _ _ _ _ Hin1) in H. destruct r as [|[]|]; auto.
  - intros [= <- <-]. now left.
Qed.
Lemma route_match_val E ps c r c' : at_start E c -> route_match E ps c = (r, c') ->
  match r with
  | RAvail true => Forall (fun p => rval E p true) ps
  | RAvail false => Exists (fun p => rval E p false) ps
  | _ => True
  end.
Proof.
  intros Hs. unfold route_match. destruct ps as [|p ps]; [intros [= <- <-]; constructor|]. pose proof (at_start_extf _ _ _ (ensure_extf E (flat_map host_paths (p :: ps)) c) Hs) as Hs1.
  apply route_loop_val with (pre := []). rewrite <- (at_start_scope _ _ Hs1). now constructor.
Qed.
(** the first set all of whose predicates hold *)
Lemma first_match_spec E (bpf : action_set -> blueprint) : forall ss c r c', at_start E c -> first_match E (map bpf ss) c = (r, c') ->
  match r with
  | Some (Some b) => exists pre s post, ss = pre ++ s :: post /\ b = bpf s /\
      Forall (fun t => Exists (fun p => rval E p false) (bp_preds (bpf t))) pre /\ Forall (fun p => rval E p true) (bp_preds (bpf s))
  | Some None => Forall (fun t => Exists (fun p => rval E p false) (bp_preds (bpf t))) ss
  | None => True
  end.
Proof.
  induction ss as [|s ss IH]; intros c r c' Hs; cbn [map first_match]; [intros [= <- <-]; constructor|].
  destruct (route_match E (bp_preds (bpf s)) c) as [r1 c1] eqn:H1. pose proof (at_start_extf _ _ _ (route_match_extf _ _ _ _ _ H1) Hs) as Hs1. apply route_match_val in H1; [|exact Hs].
  destruct r1 as [|[]|]; try (intros [= <- <-]; exact Logic.I).
  - intros [= <- <-]. exists [], s, ss. repeat split; auto.
  - intros H. apply IH in H; [|exact Hs1]. destruct r as [[b|]|]; auto.
    destruct H as (pre & s' & post & -> & -> & H2 & H3). exists (s :: pre), s', post. repeat split; auto.
Qed.
Lemma preds_of E svs cfg s : compile_set E svs (cfg_rsrc E cfg) s <> None -> map_opt (parse_expr E) (as_preds s) = Some (bp_preds (bp_of E svs cfg s)).
Proof.
  unfold bp_of. destruct (compile_set E svs (cfg_rsrc E cfg) s) as [bp|] eqn:Hc; [|easy]. intros _. unfold compile_set in Hc.
  destruct (map_opt (parse_expr E) (as_preds s)) as [ps|]; [|discriminate]. destruct (map_opt _ _); [|discriminate]. injection Hc as <-. reflexivity.
Qed.
