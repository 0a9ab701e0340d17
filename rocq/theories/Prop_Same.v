(** C106 (what the instance makes of the settings). *)
From Coq Require Import String Ascii List NArith ZArith Bool Lia Arith Permutation.
From Verif Require Import Base Value Headers AttrPath Ctx CelProps CelEval Sse Body ValueBytes Tasks Exec Config Legacy Blueprint Factory Filter Serde
  P_Plan Prop_Paths Prop_Serde Demo DemoCfg.
From Verif Require P_Scope Prop_Route.
Import ListNotations.
Open Scope list_scope.

(** * Specifications *)
(** [same] (Prop_Serde.v): documents that differ in the order of the entries of their objects; [same_settings]. *)
(** every name of a set of named things is there once *)
Definition named_once {A} (l : list (text * A)) : Prop := NoDup (map fst l).

(** * Lemmas *)
(** ** Services are found by their names *)
Lemma typed_svs E svs svs' : (forall n, tget n svs = tget n svs') -> forall t id, compile_typed E svs t id = compile_typed E svs' t id.
Proof.
  intros H t. induction t as [p t g s var sv m rs IH|p t g s o Ho] using taction_ind'; intros id.
  - cbn [compile_typed]. destruct (parse_expr E p); [|reflexivity]. rewrite <- H. destruct (tget sv svs) as [[k i|]|]; try reflexivity.
    match goal with |- match ?f 0 rs with _ => _ end = match ?g 0 rs with _ => _ end => enough (G : forall i l, Forall (fun t => forall id, compile_typed E svs t id = compile_typed E svs' t id) l -> f i l = g i l) by now rewrite (G 0 rs IH) end.
    intros i0 l HF. revert i0. induction HF as [|r l Hr _ IH2]; intros i0; [reflexivity|]. cbn. destruct (ta_seq r); [reflexivity|]. now rewrite Hr, IH2.
  - destruct o; try reflexivity. exfalso. eapply Ho. reflexivity.
Qed.
Lemma legacy_svs E svs svs' l id deps rd : (forall n, tget n svs = tget n svs') -> compile_legacy E svs l id deps rd = compile_legacy E svs' l id deps rd.
Proof. intros H. unfold compile_legacy. rewrite <- H. destruct (tget _ svs) as [[[] i|]|]; try reflexivity; now rewrite (typed_svs E svs svs' H). Qed.
Lemma map_opt_eq {A B} (f g : A -> option B) l : (forall a, f a = g a) -> map_opt f l = map_opt g l.
Proof. intros H. induction l as [|a l IH]; [reflexivity|]. cbn. now rewrite H, IH. Qed.
Lemma set_svs E svs svs' rd s : (forall n, tget n svs = tget n svs') -> compile_set E svs rd s = compile_set E svs' rd s.
Proof.
  intros H. unfold compile_set. erewrite (map_opt_eq (compile_action E svs rd) (compile_action E svs' rd)); [reflexivity|].
  intros [i [c deps]]. unfold compile_action. destruct c; [now rewrite (typed_svs E svs svs' H)|now apply legacy_svs].
Qed.
Lemma sets_svs E svs svs' rd dev l : (forall n, tget n svs = tget n svs') -> forall ix, fold_left (add_set E svs rd dev) l ix = fold_left (add_set E svs' rd dev) l ix.
Proof.
  intros H. induction l as [|s l IH]; intros ix; [reflexivity|]. cbn. rewrite IH. f_equal. unfold add_set. destruct ix; [|reflexivity]. now rewrite (set_svs E svs svs' rd s H).
Qed.
Lemma map_opt_perm {A B} (f : A -> option B) l l' : Permutation l l' ->
  match map_opt f l, map_opt f l' with Some r, Some r' => Permutation r r' | None, None => True | _, _ => False end.
Proof.
  induction 1 as [|a l l' H IH|a b l|l l' l'' H1 IH1 H2 IH2]; cbn; [constructor| | |].
  - destruct (f a), (map_opt f l), (map_opt f l'); try easy. now constructor.
  - destruct (f a), (f b), (map_opt f l); try easy. constructor.
  - destruct (map_opt f l), (map_opt f l'), (map_opt f l''); try easy. now rewrite IH1.
Qed.
Lemma map_opt_keys {A B} (f : A -> option B) (l : list (text * A)) : forall r, map_opt (fun kv => option_map (pair (fst kv)) (f (snd kv))) l = Some r -> map fst r = map fst l.
Proof.
  induction l as [|[k a] l IH]; intros r; cbn; [now intros [= <-]|]. destruct (f a); [|easy]. cbn. destruct (map_opt _ l) as [r0|]; [|easy]. intros [= <-]. cbn. f_equal. now apply IH.
Qed.
Lemma tget_perm {A} (l l' : list (text * A)) n : named_once l -> Permutation l l' -> tget n l = tget n l'.
Proof.
  intros Hn Hp. assert (Hn' : named_once l') by (eapply Permutation_NoDup; [apply Permutation_map; exact Hp|exact Hn]).
  destruct (tget n l) as [x|] eqn:H.
  - apply (In_tget _ Hn) in H. symmetry. apply (In_tget _ Hn'). now apply (Permutation_in _ Hp).
  - destruct (tget n l') as [x|] eqn:H'; [|reflexivity]. apply (In_tget _ Hn') in H'. apply (Permutation_in _ (Permutation_sym Hp)) in H'. apply (In_tget _ Hn) in H'. congruence.
Qed.

(** ** The request data is sorted by domain and field *)
Lemma pair_total a b : pair_leb a b = false -> pair_leb b a = true.
Proof.
  unfold pair_leb, text_ltb. destruct a as [a1 a2], b as [b1 b2]. cbn [fst snd]. destruct (text_leb b1 a1) eqn:H1; cbn; [|discriminate].
  destruct (text_leb a1 b1) eqn:H2; cbn; [|reflexivity]. rewrite (P_Scope.leb_antisym _ _ H1 H2), text_eqb_refl. cbn. apply P_Scope.leb_total.
Qed.
Lemma pair_antisym a b : pair_leb a b = true -> pair_leb b a = true -> a = b.
Proof.
  unfold pair_leb, text_ltb. destruct a as [a1 a2], b as [b1 b2]. cbn [fst snd].
  destruct (text_leb b1 a1) eqn:H1, (text_leb a1 b1) eqn:H2; cbn.
  - rewrite (P_Scope.leb_antisym _ _ H1 H2), text_eqb_refl. cbn. intros H3 H4. f_equal. now apply P_Scope.leb_antisym.
  - intros H3 _. apply andb_true_iff in H3 as [H3 _]. apply text_eqb_eq in H3. congruence.
  - intros _ H3. apply andb_true_iff in H3 as [H3 _]. apply text_eqb_eq in H3. congruence.
  - apply P_Scope.leb_total in H1. congruence.
Qed.
Lemma pair_trans a b c : pair_leb a b = true -> pair_leb b c = true -> pair_leb a c = true.
Proof.
  unfold pair_leb, text_ltb. destruct a as [a1 a2], b as [b1 b2], c as [c1 c2]. cbn [fst snd].
  rewrite !orb_true_iff, !andb_true_iff, !negb_true_iff, !text_eqb_eq. intros [H|[-> H]] [K|[<- K]]; auto.
  - left. destruct (text_leb c1 a1) eqn:L; [|reflexivity]. apply P_Scope.leb_total in H. rewrite (P_Scope.leb_trans _ _ _ L H) in K. discriminate.
  - right. split; [reflexivity|]. eapply P_Scope.leb_trans; eauto.
Qed.
Section SortRd.
Context {V : Type}.
Notation item := ((text * text) * V)%type.
Lemma ins_comm (x y : item) : fst x <> fst y -> forall l, ins_rd x (ins_rd y l) = ins_rd y (ins_rd x l).
Proof.
  intros Hn l. induction l as [|z l IH].
  - cbn. destruct (pair_leb (fst x) (fst y)) eqn:H1, (pair_leb (fst y) (fst x)) eqn:H2; try reflexivity; [destruct Hn; now apply pair_antisym|apply pair_total in H1; congruence].
  - cbn [ins_rd]. destruct (pair_leb (fst y) (fst z)) eqn:Hy, (pair_leb (fst x) (fst z)) eqn:Hx; cbn [ins_rd]; rewrite ?Hx, ?Hy.
    + destruct (pair_leb (fst x) (fst y)) eqn:H1, (pair_leb (fst y) (fst x)) eqn:H2; try reflexivity; [destruct Hn; now apply pair_antisym|apply pair_total in H1; congruence].
    + destruct (pair_leb (fst x) (fst y)) eqn:H1; [|reflexivity]. rewrite (pair_trans _ _ _ H1 Hy) in Hx. discriminate.
    + destruct (pair_leb (fst y) (fst x)) eqn:H1; [|reflexivity]. rewrite (pair_trans _ _ _ H1 Hx) in Hy. discriminate.
    + now rewrite IH.
Qed.
Lemma sort_perm (l l' : list item) : Permutation l l' -> NoDup (map fst l) -> sort_rd l = sort_rd l'.
Proof.
  unfold sort_rd. induction 1 as [|a l l' H IH|a b l|l l' l'' H1 IH1 H2 IH2]; cbn; intros Hd; [reflexivity| | |].
  - inversion Hd; subst. now rewrite IH.
  - apply ins_comm. inversion Hd as [|? ? Hi _]; subst. intros He. apply Hi. left. now rewrite He.
  - rewrite IH1 by exact Hd. apply IH2. eapply Permutation_NoDup; [apply Permutation_map; exact H1|exact Hd].
Qed.
End SortRd.
Lemma filter_map_perm {A B} (f : A -> option B) l l' : Permutation l l' -> Permutation (filter_map f l) (filter_map f l').
Proof.
  induction 1 as [|a l l' H IH|a b l|l l' l'' H1 IH1 H2 IH2]; cbn; [constructor| | |now rewrite IH1].
  - destruct (f a); auto.
  - destruct (f a), (f b); auto. constructor.
Qed.
Lemma key_injective alpha a b : domain_and_field alpha a = domain_and_field alpha b -> a = b.
Proof.
  intros H. pose proof (C74_key_split_text alpha a) as Ha. pose proof (C74_key_split_text alpha b) as Hb. rewrite H in Ha. destruct (domain_and_field alpha b) as [d f].
  destruct Ha as [[Ha1 Ha]|(Ha & Ha1 & _)], Hb as [[Hb1 Hb]|(Hb & Hb1 & _)]; congruence.
Qed.
Lemma keys_once E (l : list (text * text)) : named_once l ->
  NoDup (map fst (filter_map (fun kv => option_map (fun e => (domain_and_field (o_alpha E) (fst kv), (snd kv, e))) (parse_expr E (snd kv))) l)).
Proof.
  unfold named_once. induction l as [|[k v] l IH]; cbn; [constructor|]. intros Hd. inversion Hd as [|? ? Hi Hd']; subst. destruct (parse_expr E v); cbn; [|now apply IH].
  constructor; [|now apply IH]. intros Hx. apply Hi. clear - Hx. induction l as [|[k2 v2] l IH]; cbn in *; [easy|]. destruct (parse_expr E v2); cbn in Hx; [destruct Hx as [Hx|Hx]|]; auto.
  left. now apply key_injective in Hx.
Qed.
Lemma de_map_once {A} (d : json -> option A) j m : de_map d j = Some m -> named_once m.
Proof.
  unfold de_map. destruct j; try discriminate. destruct (map_opt _ _) as [kvs|]; [|discriminate]. intros [= <-]. unfold named_once.
  assert (G : forall m0, NoDup (map fst m0) -> NoDup (map fst (fold_left (fun (m : list (text * A)) kv => tset (fst kv) (snd kv) m) kvs m0))).
  { induction kvs as [|kv kvs IH]; intros m0 H0; [exact H0|]. cbn. apply IH. apply NoDup_aset; [apply text_eqb_eq|exact H0]. }
  apply G. constructor.
Qed.
Lemma config_once dur j c : de_config dur j = Some c -> named_once (pc_request_data c) /\ named_once (pc_services c).
Proof.
  unfold de_config, bind. destruct (fields _ _ j) as [o|]; [|easy]. destruct (need_or (de_map de_text) _ _ o) as [rd|] eqn:H1; [|easy].
  destruct (need (de_map _) _ o) as [sv|] eqn:H2; [|easy]. destruct (need (de_vec _) _ o); [|easy]. destruct (need_or de_observability _ _ o); [|easy]. destruct (need_or de_text _ _ o); [|easy].
  intros [= <-]. cbn. split.
  - unfold need_or in H1. destruct (get _ o) as [[v|]|]; [now apply de_map_once in H1| |easy]. injection H1 as <-. constructor.
  - unfold need in H2. destruct (get _ o) as [[v|]|]; [now apply de_map_once in H2|easy..].
Qed.

(** * C106 *)
(** The same settings make the same instance: services and request data may come in any order, the one in which the
    hash maps of the instance give them included. *)
Theorem C106_same_settings_same_factory : forall E c c', named_once (pc_request_data c) -> named_once (pc_services c) -> same_settings c c' ->
  try_from E c' = try_from E c.
Proof.
  intros E [rd sv sets i t ds] [rd' sv' sets' i' t' ds'] Hr Hs (P1 & P2 & H3 & H4 & H5 & H6). cbn in *. subst. unfold try_from. cbn [pc_services pc_tracing pc_request_data pc_identifier pc_sets].
  pose proof (map_opt_perm (fun kv => option_map (pair (fst kv)) (inst_of (snd kv))) _ _ P2) as HP.
  destruct (map_opt _ sv) as [svs|] eqn:M1, (map_opt _ sv') as [svs'|] eqn:M2; try (now destruct HP).
  assert (HT : forall n, tget n svs' = tget n svs).
  { intros n. symmetry. apply tget_perm; [|exact HP]. unfold named_once. now rewrite (map_opt_keys inst_of _ _ M1). }
  rewrite <- (sort_perm _ _ (filter_map_perm _ _ _ P1) (keys_once E rd Hr)).
  assert (HX : match t with Some n => match tget n svs' with Some i => i | None => ITrace None end | None => ITrace None end =
               match t with Some n => match tget n svs with Some i => i | None => ITrace None end | None => ITrace None end) by (destruct t as [n|]; [now rewrite HT|reflexivity]).
  rewrite HX. cbv zeta. now rewrite (sets_svs E svs' svs _ _ _ HT).
Qed.
Print Assumptions C106_same_settings_same_factory.

(** So documents that differ only in the order of entries make the same instance, and every request is treated alike. *)
Theorem C106_order_never_changes_treatment : forall dur E j j' c, same j j' -> de_config dur j = Some c ->
  exists c', de_config dur j' = Some c' /\ try_from E c' = try_from E c /\
  forall fa fa' l, try_from E c = Some fa -> try_from E c' = Some fa' -> frun E fa' l = frun E fa l.
Proof.
  intros dur E j j' c Hs Hc. destruct (C106_order_of_entries_is_irrelevant dur j j' c Hs Hc) as (c' & Hc' & Hss). exists c'. split; [exact Hc'|].
  destruct (config_once _ _ _ Hc) as [H1 H2]. pose proof (C106_same_settings_same_factory E c c' H1 H2 Hss) as He. split; [exact He|].
  intros fa fa' l Hf Hf'. congruence.
Qed.
Print Assumptions C106_order_never_changes_treatment.

(** The settings written in two orders: both are read, make an instance, and the instances are the same; sorting the
    request data is what makes them so. *)
Definition rd106 : list (text * text) := [(tx "b.y", tx "true"); (tx "b.x", tx "true"); (tx "a.z", tx "true")].
Definition cfg106 (rd : list (text * text)) : plugin_cfg :=
  let c := dcfg [CTyped (ddeny "true" true true)] in
  mkPlugin rd (pc_services c) (pc_sets c) (pc_identifier c) (pc_tracing c) (pc_descriptor_service c).
Example C106_ex_same : named_once (pc_request_data (cfg106 rd106)) /\ named_once (pc_services (cfg106 rd106)) /\
  same_settings (cfg106 rd106) (cfg106 (rev rd106)) /\ (exists fa, try_from Ed (cfg106 rd106) = Some fa /\ length (fa_rdata fa) = 3) /\
  cfg106 rd106 <> cfg106 (rev rd106).
Proof.
  split; [repeat (constructor; [cbn; intuition discriminate|]); constructor|]. split; [repeat (constructor; [cbn; intuition discriminate|]); constructor|].
  split; [split; [apply Permutation_rev|]; repeat split; reflexivity|]. split; [eexists; split; vm_compute; reflexivity|]. intros [=].
Qed.
