(** C35 - C40: which action set serves a request. *)
From Coq Require Import String Ascii List NArith ZArith Bool Lia Arith.
From Verif Require Import Base Value Headers AttrPath Ctx CelProps CelEval Sse Body Tasks Exec Config Legacy Blueprint Factory Filter
  P_Frame P_Apply P_Exec P_Run P_Inv P_Ids P_Plan P_Deps P_Order P_Term P_Bar P_Cfg P_Hist P_Grow P_Wake P_Fail P_Head P_Told P_Eff P_Rid P_Route Demo DemoCfg
  Prop_Order Prop_Term Prop_Guard Prop_Wake Prop_Fail Prop_Know Prop_Eff.
Import ListNotations.
Open Scope list_scope.

(** * Specifications *)
(** what the host says the request's host is *)
Definition asks (E : env) (raw : text) : Prop :=
  h_prop E [EvReqHeaders] [tx "request"; tx "host"] = HOk (Some raw) /\ parse_string raw = Some raw.
(** the part before a port, in lower case *)
Definition host_of (raw h : text) : Prop :=
  exists name port, raw = name ++ port /\ ~ In colon name /\ (port = [] \/ exists n, port = colon :: n) /\ h = to_lower name.
Definition star : ascii := "*"%char.
Definition wild (p : text) : Prop := exists r, p = star :: r.
(** the configured host name [p] is for the (lower-case) host [h] *)
Definition covers (p h : text) : Prop :=
  (~ wild p /\ to_lower p = h) \/ exists r x, p = star :: r /\ h = x ++ to_lower r.
Definition better (p q : text) : Prop := (~ wild p /\ wild q) \/ (wild p /\ wild q /\ length q < length p).
Definition names (cfg : plugin_cfg) (p : text) : Prop := exists s, In s (pc_sets cfg) /\ In p (as_hosts s).
Definition best (cfg : plugin_cfg) (h p : text) : Prop :=
  names cfg p /\ covers p h /\ forall q, names cfg q -> covers q h -> ~ better q p.
(** every host name of every set, in order of configuration *)
Definition listed (cfg : plugin_cfg) : list (text * action_set) :=
  flat_map (fun s => map (fun h => (h, s)) (as_hosts s)) (pc_sets cfg).
(** the sets listed for the host name [p], whatever the case *)
Definition sets_for (cfg : plugin_cfg) (p : text) : list action_set :=
  map snd (filter (fun e => text_eqb (to_lower (fst e)) (to_lower p)) (listed cfg)).
(** the set as compiled, the dev-mode action after its own *)
Definition compiled (E : env) (svs : list (text * sinst)) (cfg : plugin_cfg) (s : action_set) (b : blueprint) : Prop :=
  exists bp, compile_set E svs (cfg_rsrc E cfg) s = Some bp /\ b = mkBp (bp_name bp) (bp_preds bp) (bp_actions bp ++ cfg_dev svs cfg).
(** the candidates found for the request (FA:172-178) *)
Definition offered (E : env) (fa : factory) : option (list blueprint) :=
  match get_hostname E (ctx0 [EvReqHeaders]) with
  | (Some h, _) => option_map snd (ancestor (reverse_subdomain h) (fa_index fa))
  | (None, _) => None
  end.
Definition dollar : ascii := "$"%char.
(** configured names have no [$] and at most one star in front; the request host has no [$] *)
Definition ordinary (p : text) : Prop := ~ In dollar p /\ forall r, p = star :: r -> ~ wild r.
Definition ordinary_names (cfg : plugin_cfg) : Prop := forall p, names cfg p -> ordinary p.
Definition ordinary_host (h : text) : Prop := ~ In dollar h.

(** * Lemmas *)
Lemma lower_inj_star c : lower_char c = star -> c = star.
Proof. destruct c as [[] [] [] [] [] [] [] []]; vm_compute; congruence. Qed.
Lemma lower_inj_dollar c : lower_char c = dollar -> c = dollar.
Proof. destruct c as [[] [] [] [] [] [] [] []]; vm_compute; congruence. Qed.
Lemma lower_dollar t : ~ In dollar t -> ~ In dollar (to_lower t).
Proof. intros H Hi. apply in_map_iff in Hi as (c & Hc & Hi). apply lower_inj_dollar in Hc. now subst. Qed.
Lemma lower_wild p : wild (to_lower p) <-> wild p.
Proof.
  split.
  - intros (r & H). destruct p as [|c p]; [discriminate|]. cbn in H. injection H as Hc _. apply lower_inj_star in Hc. subst. now exists p.
  - intros (r & ->). now exists (to_lower r).
Qed.
Lemma form_exact p : ~ wild p -> form p = dollar :: p ++ [dot].
Proof.
  intros H. destruct p as [|c p]; [reflexivity|]. unfold form. destruct c as [[] [] [] [] [] [] [] []]; try reflexivity. destruct H. now exists p.
Qed.
Lemma form_wild r : form (star :: r) = r ++ [dot].
Proof. reflexivity. Qed.
Lemma form_covers_star p h : ordinary p -> ordinary_host (star :: h) -> (exists x, form (star :: h) = x ++ form (to_lower p)) <-> covers p (star :: h).
Proof.
  intros [Hp Hs] Hd. rewrite form_wild.
  assert (Wd : wild p \/ ~ wild p).
  { destruct p as [|c p]; [right; intros (r & [=])|]. destruct (ascii_dec c star) as [->|Hne]; [left; now exists p|right; intros (r & [= ? ?]); easy]. }
  destruct Wd as [(r & ->)|Hn].
  - change (to_lower (star :: r)) with (star :: to_lower r). rewrite form_wild. split.
    + intros (x & H). right. exists r. rewrite app_assoc in H. apply app_inj_tail in H as [-> _]. exists (star :: x). auto.
    + intros [[Hx _]|(r' & x & [= <-] & Hx)]; [destruct Hx; now exists r|]. destruct x as [|c x].
      * cbn [app] in Hx. destruct (Hs r eq_refl). apply lower_wild. now exists h.
      * cbn [app] in Hx. injection Hx as _ ->. exists x. now rewrite app_assoc.
  - rewrite form_exact by now rewrite lower_wild. split.
    + intros (x & H). rewrite app_comm_cons, app_assoc in H. apply app_inj_tail in H as [-> _]. destruct Hd. right. apply in_or_app. right. now left.
    + intros [[_ Hx]|(r & x & -> & _)]; [|destruct Hn; now exists r]. destruct Hn. apply lower_wild. now exists h.
Qed.
Lemma form_covers p h : ordinary p -> ordinary_host h -> (exists x, form h = x ++ form (to_lower p)) <-> covers p h.
Proof.
  intros Hpo Hd. assert (Wh : wild h \/ ~ wild h).
  { destruct h as [|c h]; [right; intros (r & [=])|]. destruct (ascii_dec c star) as [->|Hne]; [left; now exists h|right; intros (r & [= ? ?]); easy]. }
  destruct Wh as [(h' & ->)|Hw]; [now apply form_covers_star|]. destruct Hpo as [Hp _]. rewrite (form_exact h Hw). unfold ordinary_host in Hd.
  assert (Wd : wild p \/ ~ wild p).
  { destruct p as [|c p]; [right; intros (r & [=])|]. destruct (ascii_dec c star) as [->|Hne]; [left; now exists p|right; intros (r & [= ? ?]); easy]. }
  destruct Wd as [(r & ->)|Hn].
  - change (to_lower (star :: r)) with (star :: to_lower r). rewrite form_wild. split.
    + intros (x & H). right. exists r. rewrite app_comm_cons, app_assoc in H. apply app_inj_tail in H as [H _].
      destruct x as [|c x]; cbn [app] in H; [|injection H as <- ->; now exists x].
      exfalso. assert (Hi : In dollar (to_lower r)) by (rewrite <- H; now left). apply lower_dollar in Hi; [exact Hi|]. intros H'. apply Hp. now right.
    + intros [[Hx _]|(r' & x & [= <-] & ->)]; [destruct Hx; now exists r|]. exists (dollar :: x). cbn. now rewrite <- app_assoc.
  - rewrite form_exact by now rewrite lower_wild. split.
    + intros (x & H). left. split; [exact Hn|]. rewrite !app_comm_cons, app_assoc in H. apply app_inj_tail in H as [H _].
      destruct x as [|c x]; cbn [app] in H; [now injection H as ->|]. injection H as <- ->. destruct Hd. apply in_or_app. right. now left.
    + intros [[_ <-]|(r & x & -> & _)]; [now exists []|]. destruct Hn. now exists r.
Qed.
Lemma form_length p : length (form (to_lower p)) = if match p with "*"%char :: _ => true | _ => false end then length p else 2 + length p.
Proof.
  destruct p as [|c p]; [reflexivity|]. destruct (ascii_dec c star) as [->|Hne].
  - change (to_lower (star :: p)) with (star :: to_lower p). rewrite form_wild, app_length. unfold to_lower. rewrite map_length. cbn. lia.
  - rewrite form_exact by (rewrite lower_wild; intros (r & [= H _]); easy). cbn [length]. rewrite app_length. unfold to_lower. rewrite map_length. cbn [length].
    destruct c as [[] [] [] [] [] [] [] []]; try (cbn; lia). now destruct Hne.
Qed.
Lemma form_inj p q : ~ In dollar p -> ~ In dollar q -> form (to_lower p) = form (to_lower q) -> to_lower p = to_lower q.
Proof.
  intros Hp Hq. pose proof (lower_dollar p Hp) as Lp. pose proof (lower_dollar q Hq) as Lq.
  assert (W : forall t, wild t \/ ~ wild t).
  { intros [|c t]; [right; intros (r & [=])|]. destruct (ascii_dec c star) as [->|Hne]; [left; now exists t|right; intros (r & [= ? ?]); easy]. }
  destruct (W (to_lower p)) as [(r & Hr)|Hn]; destruct (W (to_lower q)) as [(r' & Hr')|Hn'].
  - rewrite Hr, Hr', !form_wild. intros H. apply app_inj_tail in H as [-> _]. reflexivity.
  - rewrite Hr, form_wild, (form_exact _ Hn'). intros H. rewrite app_comm_cons in H. apply app_inj_tail in H as [H _]. destruct Lp. rewrite Hr, H. right. now left.
  - rewrite Hr', form_wild, (form_exact _ Hn). intros H. rewrite app_comm_cons in H. apply app_inj_tail in H as [H _]. destruct Lq. rewrite Hr', <- H. right. now left.
  - rewrite (form_exact _ Hn), (form_exact _ Hn'). intros [= H]. apply app_inj_tail in H as [-> _]. reflexivity.
Qed.
Lemma In_listed cfg p s : In (p, s) (listed cfg) <-> In s (pc_sets cfg) /\ In p (as_hosts s).
Proof.
  unfold listed. rewrite in_flat_map. split.
  - intros (s' & Hs & Hi). apply in_map_iff in Hi as (h & [= <- <-] & Hi). auto.
  - intros [H1 H2]. exists s. split; [exact H1|]. apply in_map_iff. now exists p.
Qed.
Lemma before_app c name port : ~ In c name -> (port = [] \/ exists n, port = c :: n) -> before_char c (name ++ port) = name.
Proof.
  intros Hn Hp. induction name as [|x name IH]; cbn [app before_char].
  - destruct Hp as [->|(n & ->)]; [reflexivity|]. cbn. now rewrite Ascii.eqb_refl.
  - destruct (Ascii.eqb_spec x c) as [->|_]; [destruct Hn; now left|]. f_equal. apply IH. intros H. apply Hn. now right.
Qed.
Lemma asks_host E raw h : asks E raw -> host_of raw h -> fst (get_hostname E (ctx0 [EvReqHeaders])) = Some h.
Proof.
  intros [H1 H2] (name & port & -> & Hn & Hp & ->). unfold get_hostname, read_string, read_attr. cbn [cache_get ctx0 c_cache aget c_log].
  change (fetch E [EvReqHeaders] [tx "request"; tx "host"]) with
    (match h_prop E [EvReqHeaders] [tx "request"; tx "host"] with HOk b => HOk (CBytes b) | HNotAvail => HNotAvail | HErr => HErr end).
  rewrite H1, H2. cbn [fst]. now rewrite before_app.
Qed.

(** * C35 *)
(** The candidates: the sets listed for the best configured name that covers the host; exact
    names are better than wildcards, longer wildcards better than shorter ones *)
Lemma candidates_of_best : forall E cfg fa raw h,
  try_from E cfg = Some fa -> asks E raw -> host_of raw h -> ordinary_names cfg -> ordinary_host h ->
  exists svs, cfg_svs cfg = Some svs /\
  ((forall p, names cfg p -> ~ covers p h) /\ offered E fa = None \/
   exists p bps, best cfg h p /\ offered E fa = Some bps /\ Forall2 (compiled E svs cfg) (sets_for cfg p) bps).
Proof.
  intros E cfg fa raw h Hf Ha Hh Hon Hoh. destruct (try_from_index _ _ _ Hf) as (svs & Hs & HI & Hc & _). exists svs. split; [exact Hs|].
  unfold offered. pose proof (asks_host _ _ _ Ha Hh) as Hg. destruct (get_hostname E (ctx0 [EvReqHeaders])) as [o c]. cbn [fst] in Hg. subst o.
  pose proof (index_search _ _ _ h HI) as Hx.
  assert (K : forall p, names cfg p -> (exists x, form h = x ++ form (to_lower p)) <-> covers p h) by (intros p Hp; apply form_covers; auto).
  destruct (ancestor (reverse_subdomain h) (fa_index fa)) as [[k bps]|]; cbn [option_map snd].
  - right. destruct Hx as (p & s & Hi & Hcov & Hmax & ->). exists p. eexists. split; [|split; [reflexivity|]].
    + apply In_listed in Hi. assert (Hp : names cfg p) by (exists s; tauto). split; [exact Hp|]. split; [now apply K|].
      intros q Hq Hcq Hb. assert (Hq' := Hq). destruct Hq' as (s' & Hs' & Hh'). apply (K q Hq) in Hcq. specialize (Hmax q s' (proj2 (In_listed cfg q s') (conj Hs' Hh')) Hcq).
      rewrite !form_length in Hmax. destruct Hb as [[Hb1 (r & ->)]|((r1 & ->) & (r2 & ->) & Hlt)].
      * cbn in Hmax. assert (Hcp : covers (star :: r) h) by now apply K. destruct Hcp as [[Hx _]|(r' & x & [= <-] & ->)]; [destruct Hx; now exists r|].
        apply (K q Hq) in Hcq. destruct Hcq as [[_ Hcq]|(r' & x' & -> & _)]; [|destruct Hb1; now exists r'].
        assert (Hlq : length q = length (x ++ to_lower r)) by (rewrite <- Hcq; unfold to_lower; now rewrite map_length).
        rewrite app_length in Hlq. unfold to_lower in Hlq. rewrite map_length in Hlq.
        destruct q as [|c1 q]; [cbn in Hmax, Hlq; lia|]. destruct c1 as [[] [] [] [] [] [] [] []]; cbn in Hmax, Hlq; try lia. destruct Hb1. now exists q.
      * cbn in Hmax, Hlt. lia.
    + assert (Hsf : map snd (filter (fun e => text_eqb (form (to_lower (fst e))) (form (to_lower p))) (entries (pc_sets cfg))) = sets_for cfg p).
      { unfold sets_for. f_equal. change (entries (pc_sets cfg)) with (listed cfg). apply In_listed in Hi.
        assert (Hp : ~ In dollar p) by (apply Hon; exists s; tauto). apply filter_ext_in. intros [q t] Hq. cbn [fst]. apply In_listed in Hq.
        assert (Hq' : ~ In dollar q) by (apply Hon; exists t; tauto). apply eq_true_iff_eq. rewrite !text_eqb_eq. split; [now apply form_inj|now intros ->]. }
      rewrite Hsf. assert (Hall : Forall (fun s => compile_set E svs (cfg_rsrc E cfg) s <> None) (sets_for cfg p)).
      { apply Forall_forall. intros t Ht. apply Hc. unfold sets_for in Ht. apply in_map_iff in Ht as ([q t'] & <- & Ht). apply filter_In in Ht as [Ht _]. apply In_listed in Ht. tauto. }
      clear -Hall. induction Hall as [|t ss Ht _ IH]; cbn [map]; constructor; [|exact IH].
      unfold compiled, bp_of. destruct (compile_set E svs (cfg_rsrc E cfg) t) as [bp|]; [|easy]. now exists bp.
  - left. split; [|reflexivity]. intros p Hp Hcov. assert (Hp' := Hp). destruct Hp' as (s & H1 & H2). apply (K p Hp) in Hcov.
    apply (Hx p s); [|exact Hcov]. change (entries (pc_sets cfg)) with (listed cfg). apply In_listed. auto.
Qed.

Lemma wild_dec t : wild t \/ ~ wild t.
Proof. destruct t as [|c t]; [right; intros (r & [=])|]. destruct (ascii_dec c star) as [->|Hne]; [left; now exists t|right; intros (r & [= ? ?]); easy]. Qed.
Lemma suffix_unique {A} (x y a b : list A) : x ++ a = y ++ b -> length a = length b -> a = b.
Proof.
  intros H Hl. apply (f_equal (@rev _)) in H. rewrite !rev_app_distr in H.
  assert (K : rev a = rev b).
  { apply (prefix_unique (rev a ++ rev x)); [now exists (rev x)|now exists (rev y)|now rewrite !rev_length]. }
  apply (f_equal (@rev _)) in K. now rewrite !rev_involutive in K.
Qed.
Lemma best_unique cfg h p q : best cfg h p -> best cfg h q -> to_lower p = to_lower q.
Proof.
  intros (P1 & P2 & P3) (Q1 & Q2 & Q3). specialize (P3 q Q1 Q2). specialize (Q3 p P1 P2).
  destruct P2 as [[Wp <-]|(r & x & -> & ->)].
  - destruct Q2 as [[Wq ->]|(r' & x' & -> & _)]; [reflexivity|]. destruct Q3. left. split; [exact Wp|now exists r'].
  - destruct Q2 as [[Wq Hq]|(r' & x' & -> & Hq)]; [destruct P3; left; split; [exact Wq|now exists r]|].
    cbn. f_equal. eapply suffix_unique; [exact Hq|]. unfold to_lower. rewrite !map_length.
    destruct (Nat.lt_trichotomy (length r) (length r')) as [Hlt|[He|Hlt]]; [|exact He|].
    + destruct P3. right. split; [now exists r'|]. split; [now exists r|]. cbn. lia.
    + destruct Q3. right. split; [now exists r|]. split; [now exists r'|]. cbn. lia.
Qed.

(** For a request host and configured names without [$], and names with one star at most: the candidates are the sets listed, in order of configuration, for the best name
    that covers the host, and there are none exactly if no name covers it.
    Missing for the full claim: the host is cut at its first colon (an IPv6 literal is lost),
    and the hosts excluded here; see the refutations. *)
Theorem C35_candidates_are_those_of_the_best_name_partial : forall E cfg fa raw h,
  try_from E cfg = Some fa -> asks E raw -> host_of raw h -> ordinary_names cfg -> ordinary_host h ->
  (offered E fa = None <-> forall p, names cfg p -> ~ covers p h) /\
  forall p, best cfg h p -> exists svs bps, cfg_svs cfg = Some svs /\ offered E fa = Some bps /\ Forall2 (compiled E svs cfg) (sets_for cfg p) bps.
Proof.
  intros E cfg fa raw h Hf Ha Hh Hon Hoh. destruct (candidates_of_best _ _ _ _ _ Hf Ha Hh Hon Hoh) as (svs & Hs & [[H1 H2]|(p & bps & Hb & H1 & H2)]).
  - split; [tauto|]. intros p (P1 & P2 & _). now destruct (H1 p P1).
  - split.
    + rewrite H1. split; [discriminate|]. intros H. destruct Hb as (B1 & B2 & _). now destruct (H p B1).
    + intros q Hq. exists svs, bps. split; [exact Hs|]. split; [exact H1|]. unfold sets_for. now rewrite (best_unique _ _ _ _ Hq Hb).
Qed.
Print Assumptions C35_candidates_are_those_of_the_best_name_partial.

(** some name covers the host only if some name is best *)
Lemma best_exists E cfg fa raw h p : try_from E cfg = Some fa -> asks E raw -> host_of raw h -> ordinary_names cfg -> ordinary_host h ->
  names cfg p -> covers p h -> exists q, best cfg h q.
Proof.
  intros Hf Ha Hh Hon Hoh Hp Hc. destruct (candidates_of_best _ _ _ _ _ Hf Ha Hh Hon Hoh) as (svs & Hs & [[H1 H2]|(q & bps & Hb & H1 & H2)]); [|eauto].
  now destruct (H1 p Hp).
Qed.

(** * C36 *)
(** Requests whose hosts agree up to case and port are offered the same candidates; and so are
    they if configured names change case. *)
Definition same_names (s s' : action_set) : Prop :=
  as_name s = as_name s' /\ as_preds s = as_preds s' /\ as_actions s = as_actions s' /\ map to_lower (as_hosts s) = map to_lower (as_hosts s').
Lemma idx_add_case bp h h' ix : to_lower h = to_lower h' -> idx_add bp ix h = idx_add bp ix h'.
Proof. unfold idx_add. now intros ->. Qed.
Lemma idx_adds_case bp hs : forall hs' ix, map to_lower hs = map to_lower hs' -> fold_left (idx_add bp) hs ix = fold_left (idx_add bp) hs' ix.
Proof.
  induction hs as [|h hs IH]; intros [|h' hs'] ix H; try discriminate; [reflexivity|]. cbn [map] in H. injection H as H1 H2.
  cbn [fold_left]. rewrite (idx_add_case _ _ _ _ H1). now apply IH.
Qed.
Lemma add_sets_case E svs rd dev ss : forall ss' ix, Forall2 same_names ss ss' ->
  fold_left (add_set E svs rd dev) ss ix = fold_left (add_set E svs rd dev) ss' ix.
Proof.
  induction ss as [|s ss IH]; intros ss' ix H; inversion H as [|? s' ? ss2 Hs Hss]; subst; [reflexivity|]. cbn [fold_left].
  replace (add_set E svs rd dev ix s') with (add_set E svs rd dev ix s); [now apply IH|].
  destruct Hs as (H1 & H2 & H3 & H4). unfold add_set. destruct ix as [ix|]; [|reflexivity]. unfold compile_set. rewrite H1, H2, H3.
  destruct (map_opt (parse_expr E) (as_preds s')); [|reflexivity]. destruct (map_opt _ _); [|reflexivity]. f_equal. now apply idx_adds_case.
Qed.
Theorem C36_case_and_port_do_not_matter : forall E E' fa name name' port port',
  ~ In colon name -> ~ In colon name' -> to_lower name = to_lower name' ->
  (port = [] \/ exists n, port = colon :: n) -> (port' = [] \/ exists n, port' = colon :: n) ->
  asks E (name ++ port) -> asks E' (name' ++ port') -> offered E fa = offered E' fa.
Proof.
  intros E E' fa name name' port port' Hn Hn' Hl Hp Hp' Ha Ha'. unfold offered.
  pose proof (asks_host E (name ++ port) (to_lower name) Ha) as K. pose proof (asks_host E' (name' ++ port') (to_lower name) Ha') as K'.
  destruct (get_hostname E (ctx0 [EvReqHeaders])) as [o c], (get_hostname E' (ctx0 [EvReqHeaders])) as [o' c']. cbn [fst] in *.
  rewrite K by (exists name, port; tauto). now rewrite K' by (exists name', port'; tauto).
Qed.
Print Assumptions C36_case_and_port_do_not_matter.
Theorem C36_configured_case_does_not_matter : forall E cfg cfg',
  pc_services cfg = pc_services cfg' -> pc_identifier cfg = pc_identifier cfg' -> pc_tracing cfg = pc_tracing cfg' ->
  pc_request_data cfg = pc_request_data cfg' -> Forall2 same_names (pc_sets cfg) (pc_sets cfg') -> try_from E cfg = try_from E cfg'.
Proof.
  intros E cfg cfg' H1 H2 H3 H4 H. unfold try_from. rewrite H1, H2, H3, H4. destruct (map_opt _ (pc_services cfg')); [|reflexivity].
  now rewrite (add_sets_case _ _ _ _ _ _ _ H).
Qed.
Print Assumptions C36_configured_case_does_not_matter.

(** * C37 *)
Definition refuses (E : env) (cfg : plugin_cfg) (s : action_set) : Prop := exists x, In x (as_preds s) /\ evaluates E cfg s [] x (VBool false) [EvReqHeaders].
Definition accepts (E : env) (cfg : plugin_cfg) (s : action_set) : Prop := forall x, In x (as_preds s) -> evaluates E cfg s [] x (VBool true) [EvReqHeaders].
Definition fallback (svs : list (text * sinst)) (cfg : plugin_cfg) : option blueprint :=
  match cfg_dev svs cfg with [] => None | l => Some (mkBp (tx "kuadrant.devMode") [] l) end.

Lemma map_opt_In {A B} (f : A -> option B) (l : list A) : forall bs b, map_opt f l = Some bs -> In b bs -> exists a, In a l /\ f a = Some b.
Proof.
  induction l as [|a l IH]; intros bs b; cbn [map_opt]; [intros [= <-] []|]. destruct (f a) as [b0|] eqn:Hf; [|discriminate].
  destruct (map_opt f l) as [bs0|]; [|discriminate]. intros [= <-] [<-|Hi]; [exists a; split; [now left|exact Hf]|].
  destruct (IH _ _ eq_refl Hi) as (x & Hx & Hy). exists x. split; [now right|exact Hy].
Qed.
Lemma refuses_preds E svs cfg s : compile_set E svs (cfg_rsrc E cfg) s <> None ->
  Exists (fun p => rval E p false) (bp_preds (bp_of E svs cfg s)) -> refuses E cfg s.
Proof.
  intros Hc H. apply preds_of in Hc. apply Exists_exists in H as (e & Hi & Hv). destruct (map_opt_In _ _ _ _ Hc Hi) as (x & Hx & He).
  exists x. split; [exact Hx|]. eapply routing_told; eauto.
Qed.
Lemma accepts_preds E svs cfg s : compile_set E svs (cfg_rsrc E cfg) s <> None ->
  Forall (fun p => rval E p true) (bp_preds (bp_of E svs cfg s)) -> accepts E cfg s.
Proof.
  intros Hc H. apply preds_of in Hc. revert Hc H. generalize (bp_preds (bp_of E svs cfg s)). unfold accepts. induction (as_preds s) as [|x xs IH]; intros ps Hc H; [easy|].
  cbn [map_opt] in Hc. destruct (parse_expr E x) as [e|] eqn:He; [|discriminate]. destruct (map_opt (parse_expr E) xs) as [es|]; [|discriminate].
  injection Hc as <-. inversion H as [|? ? Hv H2]; subst. intros y [<-|Hi]; [eapply routing_told; eauto|]. now apply (IH es).
Qed.
Lemma host_start E : at_start E (snd (get_hostname E (ctx0 [EvReqHeaders]))).
Proof.
  unfold get_hostname. destruct (read_string E [tx "request"; tx "host"] (ctx0 [EvReqHeaders])) as [r c] eqn:H. apply read_string_extf in H.
  apply at_start_extf in H; [|apply near_refl]. destruct r as [|[]|]; exact H.
Qed.
Lemma In_sets_for cfg p s : In s (sets_for cfg p) -> In s (pc_sets cfg).
Proof. unfold sets_for. intros H. apply in_map_iff in H as ([q t] & <- & H). apply filter_In in H as [H _]. apply In_listed in H. tauto. Qed.
Lemma compiled_map E svs cfg ss bps : Forall2 (compiled E svs cfg) ss bps -> bps = map (bp_of E svs cfg) ss.
Proof.
  induction 1 as [|s b ss bps (bp & Hc & ->) _ IH]; [reflexivity|]. cbn [map]. f_equal; [|exact IH]. unfold bp_of. now rewrite Hc.
Qed.

(** Which blueprint the request is given: the first of the candidates whose predicates all hold,
    those before it having one that does not; else the dev-mode blueprint *)
Theorem C37_first_candidate_whose_predicates_hold : forall E cfg fa raw h p r c,
  try_from E cfg = Some fa -> asks E raw -> host_of raw h -> ordinary_names cfg -> ordinary_host h -> best cfg h p ->
  select E fa (ctx0 [EvReqHeaders]) = (Some r, c) ->
  exists svs, cfg_svs cfg = Some svs /\
  ((exists pre s post b, sets_for cfg p = pre ++ s :: post /\ Forall (refuses E cfg) pre /\ accepts E cfg s /\ compiled E svs cfg s b /\ r = Some b) \/
   (Forall (refuses E cfg) (sets_for cfg p) /\ r = fallback svs cfg)).
Proof.
  intros E cfg fa raw h p r c Hf Ha Hh Hon Hoh Hb Hsel.
  destruct (C35_candidates_are_those_of_the_best_name_partial _ _ _ _ _ Hf Ha Hh Hon Hoh) as [_ H].
  destruct (H p Hb) as (svs & bps & Hs & Ho & HF). clear H. apply compiled_map in HF. subst bps. exists svs. split; [exact Hs|].
  destruct (try_from_index _ _ _ Hf) as (svs' & Hs' & _ & Hc & Hfb). rewrite Hs in Hs'. injection Hs' as <-.
  assert (Hcs : forall s, In s (sets_for cfg p) -> compile_set E svs (cfg_rsrc E cfg) s <> None) by (intros s Hi; apply Hc; eapply In_sets_for; eauto).
  pose proof (host_start E) as Hl. unfold select in Hsel. unfold offered in Ho. destruct (get_hostname E (ctx0 [EvReqHeaders])) as [[h'|] c1]; [|discriminate].
  cbn [snd] in Hl. destruct (ancestor (reverse_subdomain h') (fa_index fa)) as [[k bps]|]; [|discriminate]. cbn in Ho. injection Ho as ->.
  destruct (first_match E (map (bp_of E svs cfg) (sets_for cfg p)) c1) as [[[b|]|] c2] eqn:Hm; [| |discriminate]; apply first_match_spec in Hm; try exact Hl.
  - injection Hsel as <- <-. left. destruct Hm as (pre & s & post & He & -> & H1 & H2). exists pre, s, post, (bp_of E svs cfg s). rewrite He in Hcs.
    split; [exact He|]. split.
    { rewrite Forall_forall in H1 |- *. intros t Ht. apply (refuses_preds E svs cfg); [apply Hcs; apply in_or_app; now left|now apply H1]. }
    assert (Hcc : compile_set E svs (cfg_rsrc E cfg) s <> None) by (apply Hcs; apply in_or_app; right; now left).
    split; [exact (accepts_preds E svs cfg s Hcc H2)|]. split; [|reflexivity].
    unfold compiled, bp_of. destruct (compile_set E svs (cfg_rsrc E cfg) s) as [bp|]; [|easy]. now exists bp.
  - injection Hsel as <- <-. right. split.
    + rewrite Forall_forall in Hm |- *. intros t Ht. apply (refuses_preds E svs cfg); [now apply Hcs|now apply Hm].
    + rewrite Hfb. unfold fallback, cfg_dev. now destruct (pc_identifier cfg).
Qed.
Print Assumptions C37_first_candidate_whose_predicates_hold.

(** * C38 *)
(** The predicates of the sets [ss] are looked at in order; each has one that does not hold.  The
    context carries what has been read from the host so far. *)
Inductive passed_over (E : env) : list action_set -> ctx -> ctx -> Prop :=
| po_nil c : passed_over E [] c c
| po_cons s ss ps c c1 c2 : map_opt (parse_expr E) (as_preds s) = Some ps -> route_match E ps c = (RAvail false, c1) ->
    passed_over E ss c1 c2 -> passed_over E (s :: ss) c c2.
(** the predicates of [s] fail or must wait *)
Definition undecided (E : env) (s : action_set) (c : ctx) : Prop :=
  exists ps, map_opt (parse_expr E) (as_preds s) = Some ps /\ forall b, fst (route_match E ps c) <> RAvail b.
Definition reaction (i : fin) : log :=
  match i with
  | InRespHeaders => [EvRet false; EvMetric MAllowed; EvRespHeaders]
  | InGrpc k st sz => [EvGrpcResp k st sz]
  | _ => [EvRet false; ev_of i]
  end.
(** what happens to a request without pipeline after its headers *)
Definition unaffected (l : list fin) : log := concat (rev (map reaction l)).
Lemma quiet_run E fa l : f_pipe (run E fa []) = None -> f_dead (run E fa []) = false -> later l ->
  f_pipe (run E fa l) = None /\ f_dead (run E fa l) = false /\ f_log (run E fa l) = unaffected l ++ f_log (run E fa []).
Proof.
  intros H1 H2. induction l as [|i l IH] using rev_ind; intros Hl; [auto|].
  destruct IH as (I1 & I2 & I3); [intros H; apply Hl; apply in_or_app; now left|].
  destruct (no_pipe_callback E fa _ i I2 I1) as (_ & K2 & K3 & K4); [intros ->; apply Hl; apply in_or_app; right; now left|].
  rewrite run_snoc. split; [exact K2|]. split; [exact K3|]. rewrite K4, I3.
  unfold unaffected. rewrite map_app, rev_app_distr. cbn [map rev app concat]. rewrite <- app_assoc. destruct i; reflexivity.
Qed.
Lemma dead_run E fa l : f_dead (run E fa []) = true -> run E fa l = run E fa [].
Proof.
  intros H. induction l as [|i l IH] using rev_ind; [reflexivity|].
  rewrite run_snoc, IH. now apply dead_stays.
Qed.
Lemma first_match_undecided E svs cfg pre s post : forall c c1, passed_over E pre c c1 -> undecided E s c1 ->
  (forall t, In t (pre ++ s :: post) -> compile_set E svs (cfg_rsrc E cfg) t <> None) ->
  fst (first_match E (map (bp_of E svs cfg) (pre ++ s :: post)) c) = None.
Proof.
  induction pre as [|t pre IH]; intros c c1 Hp Hu Hc.
  - inversion Hp; subst. destruct Hu as (ps & Hps & Hn). cbn [app map first_match]. specialize (Hc s (or_introl eq_refl)). apply preds_of in Hc. rewrite Hps in Hc.
    injection Hc as <-. destruct (route_match E ps c1) as [[|b|] c2]; [reflexivity|now destruct (Hn b)|reflexivity].
  - inversion Hp as [|? ? ps ? c2 ? Hps Hr Hp']; subst. cbn [app map first_match]. pose proof (Hc t (or_introl eq_refl)) as Hct. apply preds_of in Hct. rewrite Hps in Hct.
    injection Hct as <-. rewrite Hr. eapply IH; eauto. intros t' Ht'. apply Hc. now right.
Qed.
Theorem C38_undecided_predicates_fail_closed : forall E cfg fa raw h p pre s post c l,
  try_from E cfg = Some fa -> asks E raw -> host_of raw h -> ordinary_names cfg -> ordinary_host h -> best cfg h p ->
  sets_for cfg p = pre ++ s :: post -> passed_over E pre (snd (get_hostname E (ctx0 [EvReqHeaders]))) c -> undecided E s c ->
  later l ->
  f_pipe (run E fa l) = None /\
  exists ok : bool, f_log (run E fa l) = (if ok then unaffected l ++ [EvRet false] else []) ++ [EvReply 500 [] (Some ise_body) ok; EvMetric MErrors; EvReqHeaders].
Proof.
  intros E cfg fa raw h p pre s post c l Hf Ha Hh Hon Hoh Hb Hss Hp Hu Hl.
  destruct (C35_candidates_are_those_of_the_best_name_partial _ _ _ _ _ Hf Ha Hh Hon Hoh) as [_ H].
  destruct (H p Hb) as (svs & bps & Hs & Ho & HF). clear H. apply compiled_map in HF. subst bps.
  destruct (try_from_index _ _ _ Hf) as (svs' & Hs' & _ & Hc & _). rewrite Hs in Hs'. injection Hs' as <-.
  assert (Hcs : forall t, In t (pre ++ s :: post) -> compile_set E svs (cfg_rsrc E cfg) t <> None) by (intros t Hi; apply Hc; apply (In_sets_for cfg p); now rewrite Hss).
  assert (Hbe : exists c', build E fa (ctx0 [EvReqHeaders]) = BErr c').
  { unfold build, select. unfold offered in Ho. destruct (get_hostname E (ctx0 [EvReqHeaders])) as [[h'|] c1]; [|discriminate]. cbn [snd] in Hp.
    destruct (ancestor (reverse_subdomain h') (fa_index fa)) as [[k bps]|]; [|discriminate]. cbn in Ho. injection Ho as ->. rewrite Hss.
    pose proof (first_match_undecided E svs cfg pre s post c1 c Hp Hu Hcs) as Hm. destruct (first_match E _ c1) as [r c2]. cbn [fst] in Hm. subst r. eauto. }
  destruct Hbe as (c' & Hbe). pose proof (headers_log E fa) as HL. rewrite Hbe in HL. destruct HL as (L1 & ok & L2 & L3).
  destruct ok.
  - destruct (quiet_run E fa l L1 L2 Hl) as (Q1 & _ & Q3). split; [exact Q1|]. exists true. rewrite Q3, L3. now rewrite <- app_assoc.
  - rewrite (dead_run E fa l L2). split; [exact L1|]. exists false. exact L3.
Qed.
Print Assumptions C38_undecided_predicates_fail_closed.

(** * C39 *)
(** Wildcards of the form [*.rest] cover whole labels only *)
Definition whole_labels (cfg : plugin_cfg) : Prop := forall r, names cfg (star :: r) -> exists r', r = dot :: r'.
Theorem C39_wildcards_cover_whole_labels_partial : forall E cfg fa raw h,
  try_from E cfg = Some fa -> asks E raw -> host_of raw h -> ordinary_names cfg -> ordinary_host h -> whole_labels cfg ->
  (offered E fa <> None <->
   (exists p, names cfg p /\ ~ wild p /\ to_lower p = h) \/
   (exists r label, names cfg (star :: dot :: r) /\ h = label ++ dot :: to_lower r)).
Proof.
  intros E cfg fa raw h Hf Ha Hh Hon Hoh Hw. destruct (candidates_of_best _ _ _ _ _ Hf Ha Hh Hon Hoh) as (svs & Hs & [[H1 H2]|(p & bps & (B1 & B2 & _) & H1 & H2)]).
  - split; [easy|]. intros [(p & P1 & P2 & P3)|(r & x & P1 & P2)]; [destruct (H1 p P1); now left|destruct (H1 _ P1); right].
    exists (dot :: r), x. auto.
  - split; [|intros _; now rewrite H1]. intros _. destruct B2 as [[P2 P3]|(r & x & -> & ->)]; [left; eauto|right].
    destruct (Hw r B1) as (r' & ->). exists r', x. auto.
Qed.
Print Assumptions C39_wildcards_cover_whole_labels_partial.

(** * C40 *)
(** Missing for the full claim: the [allowed] metric is counted too, see the refutation *)
Theorem C40_other_hosts_are_unaffected_partial : forall E cfg fa raw h l,
  try_from E cfg = Some fa -> asks E raw -> host_of raw h -> ordinary_names cfg -> ordinary_host h ->
  (forall p, names cfg p -> ~ covers p h) -> later l ->
  f_pipe (run E fa l) = None /\ f_dead (run E fa l) = false /\
  f_log (run E fa l) = unaffected l ++ [EvRet false; EvMetric MMisses; EvReqHeaders].
Proof.
  intros E cfg fa raw h l Hf Ha Hh Hon Hoh Hn Hl.
  assert (Ho : offered E fa = None) by now apply (C35_candidates_are_those_of_the_best_name_partial _ _ _ _ _ Hf Ha Hh Hon Hoh).
  pose proof (asks_host _ _ _ Ha Hh) as Hg.
  assert (Hb : exists c, build E fa (ctx0 [EvReqHeaders]) = BNone c).
  { unfold build, select. unfold offered in Ho. destruct (get_hostname E (ctx0 [EvReqHeaders])) as [[h'|] c1]; [|discriminate].
    destruct (ancestor (reverse_subdomain h') (fa_index fa)) as [[k bps]|]; [discriminate|]. eauto. }
  destruct Hb as (c & Hb). pose proof (headers_log E fa) as HL. rewrite Hb in HL. destruct HL as (L1 & L2 & L3).
  destruct (quiet_run E fa l L2 L3 Hl) as (Q1 & Q2 & Q3). rewrite L1 in Q3. auto.
Qed.
Print Assumptions C40_other_hosts_are_unaffected_partial.

(** * Examples and refutations *)
(** the client asks for the host [raw] *)
Definition Er (raw : string) : env :=
  e_prop Ed (fun l p => if path_eqb p [tx "request"; tx "host"] then HOk (Some (tx raw)) else prop_demo l p).
Definition rset (n : string) (hosts preds : list string) : action_set :=
  mkSet (tx n) (map tx hosts) (map tx preds) [CTyped (ddeny "true" true false)].
Definition rcfg (ss : list action_set) : plugin_cfg := mkPlugin [] (pc_services (dcfg [])) ss None None [].
Definition rfac (raw : string) (ss : list action_set) : factory :=
  match try_from (Er raw) (rcfg ss) with Some f => f | None => factory0 end.
Definition rnames (raw : string) (ss : list action_set) : option (list text) := option_map (map bp_name) (offered (Er raw) (rfac raw ss)).
Definition rsets : list action_set :=
  [rset "far" ["*.com"] []; rset "off" ["*.example.com"; "a.example.com"] ["false"]; rset "exact" ["A.example.com"] [];
   rset "near" ["*.Example.com"] []; rset "bad" ["err.example.com"] ["err"]; rset "late" ["err.example.com"] []]%string.
Lemma rfac_ok raw : try_from (Er raw) (rcfg rsets) = Some (rfac raw rsets).
Proof. vm_compute. reflexivity. Qed.
Lemma rnames_In p : names (rcfg rsets) p -> In p (map tx ["*.com"; "*.example.com"; "a.example.com"; "A.example.com"; "*.Example.com"; "err.example.com"]%string).
Proof.
  intros (s & Hs & Hp). cbn in Hs.
  repeat (destruct Hs as [<-|Hs]; [cbn [as_hosts rset map] in Hp; repeat (destruct Hp as [<-|Hp]; [find|]); destruct Hp|]). destruct Hs.
Qed.
Lemma rsets_ordinary : ordinary_names (rcfg rsets).
Proof.
  intros p Hp. apply rnames_In in Hp. cbn [map] in Hp.
  repeat (destruct Hp as [<-|Hp]; [split; [vm_compute; intuition discriminate|intros r Hr (r' & ->); vm_compute in Hr; discriminate]|]). destruct Hp.
Qed.
Example ex35_hosts : rnames "b.example.com" rsets = Some (map tx ["off"; "near"]%string) /\ rnames "A.Example.com:8080" rsets = Some (map tx ["off"; "exact"]%string) /\
  rnames "a.b.com" rsets = Some [tx "far"] /\ rnames "example.com" rsets = Some [tx "far"] /\ rnames "com" rsets = None.
Proof. vm_compute. repeat split; reflexivity. Qed.
(** the hypotheses of C35 - C37 are met *)
Example ex35_best : asks (Er "A.Example.com:8080") (tx "A.Example.com:8080") /\ host_of (tx "A.Example.com:8080") (tx "a.example.com") /\
  ordinary_host (tx "a.example.com") /\ best (rcfg rsets) (tx "a.example.com") (tx "A.example.com") /\
  map as_name (sets_for (rcfg rsets) (tx "A.example.com")) = map tx ["off"; "exact"]%string.
Proof.
  split; [vm_compute; auto|]. split.
  { exists (tx "A.Example.com"), (tx ":8080"). split; [reflexivity|]. split; [vm_compute; intuition discriminate|]. split; [right; now exists (tx "8080")|reflexivity]. }
  split; [vm_compute; intuition discriminate|]. split; [|vm_compute; reflexivity]. split; [|split].
  - exists (rset "exact" ["A.example.com"%string] []). split; [cbn; tauto|left; reflexivity].
  - left. split; [|vm_compute; reflexivity]. intros (r & Hr). vm_compute in Hr. discriminate.
  - intros q _ _ [[_ (r & Hr)]|[_ [(r & Hr) _]]]; vm_compute in Hr; discriminate.
Qed.
(** the second set serves, the first having a false predicate *)
Example ex37 : exists c b, select (Er "A.Example.com:8080") (rfac "A.Example.com:8080" rsets) (ctx0 [EvReqHeaders]) = (Some (Some b), c) /\ bp_name b = tx "exact".
Proof. eexists _, _. split; [vm_compute; reflexivity|reflexivity]. Qed.
(** the set in front cannot be decided: 500, although the one behind it has no predicates *)
Example ex38 : sets_for (rcfg rsets) (tx "err.example.com") = [rset "bad" ["err.example.com"%string] ["err"%string]; rset "late" ["err.example.com"%string] []] /\
  (exists c, passed_over (Er "err.example.com") [] (snd (get_hostname (Er "err.example.com") (ctx0 [EvReqHeaders]))) c /\
    undecided (Er "err.example.com") (rset "bad" ["err.example.com"%string] ["err"%string]) c) /\
  f_log (run (Er "err.example.com") (rfac "err.example.com" rsets) [InRespHeaders]) =
    [EvRet false; EvMetric MAllowed; EvRespHeaders; EvRet false; EvReply 500 [] (Some ise_body) true; EvMetric MErrors; EvReqHeaders].
Proof.
  split; [vm_compute; reflexivity|]. split; [|vm_compute; reflexivity]. eexists. split; [constructor|]. eexists. split; [vm_compute; reflexivity|].
  intros b. vm_compute. discriminate.
Qed.
Example ex39 : whole_labels (rcfg rsets).
Proof.
  intros r Hr. apply rnames_In in Hr. cbn [map] in Hr.
  repeat (destruct Hr as [Hr|Hr]; [first [vm_compute in Hr; discriminate|injection Hr as <-; eexists; reflexivity]|]). destruct Hr.
Qed.
Example ex40 : (forall p, names (rcfg rsets) p -> ~ covers p (tx "com")) /\
  f_log (run (Er "com") (rfac "com" rsets) [InReqBody 3 true; InRespHeaders]) =
    [EvRet false; EvMetric MAllowed; EvRespHeaders; EvRet false; EvReqBody 3 true; EvRet false; EvMetric MMisses; EvReqHeaders].
Proof.
  split; [|vm_compute; reflexivity]. intros p Hp Hc.
  assert (Ho : offered (Er "com") (rfac "com" rsets) = None) by (vm_compute; reflexivity).
  destruct (C35_candidates_are_those_of_the_best_name_partial (Er "com") (rcfg rsets) (rfac "com" rsets) (tx "com") (tx "com")) as [[K _] _];
    [| | | | |now apply (K Ho p Hp)].
  - apply rfac_ok.
  - vm_compute. auto.
  - exists (tx "com"), []. split; [reflexivity|]. split; [vm_compute; intuition discriminate|]. split; [now left|reflexivity].
  - exact rsets_ordinary.
  - vm_compute. intuition discriminate.
Qed.

(** An IPv6 host is cut at its first colon: a set configured for exactly this host is not found *)
Theorem C35_ipv6_host_refuted : exists E cfg fa raw,
  try_from E cfg = Some fa /\ asks E raw /\ names cfg raw /\ to_lower raw = raw /\ offered E fa = None.
Proof.
  exists (Er "[::1]"), (rcfg [rset "s" ["[::1]"%string] []]), (rfac "[::1]" [rset "s" ["[::1]"%string] []]), (tx "[::1]").
  split; [vm_compute; reflexivity|]. split; [vm_compute; auto|]. split; [|split; vm_compute; reflexivity].
  eexists. split; [left; reflexivity|left; reflexivity].
Qed.
Print Assumptions C35_ipv6_host_refuted.
(** The marker for the start of an exact name is an ordinary character of a request's host: a
    host that merely ends with an exact name is given that name's sets *)
Theorem C35_marker_in_host_refuted : exists E cfg fa raw h bps,
  try_from E cfg = Some fa /\ asks E raw /\ host_of raw h /\ ordinary_names cfg /\ (forall p, names cfg p -> ~ covers p h) /\
  offered E fa = Some bps /\ bps <> [].
Proof.
  exists (Er "evil$example.com"), (rcfg [rset "s" ["example.com"%string] []]), (rfac "evil$example.com" [rset "s" ["example.com"%string] []]), (tx "evil$example.com"), (tx "evil$example.com").
  assert (Hn : forall p, names (rcfg [rset "s" ["example.com"%string] []]) p -> p = tx "example.com").
  { intros p (s & [<-|[]] & [<-|[]]). reflexivity. }
  eexists. split; [vm_compute; reflexivity|]. split; [vm_compute; auto|]. split.
  { exists (tx "evil$example.com"), []. split; [reflexivity|]. split; [vm_compute; intuition discriminate|]. split; [now left|reflexivity]. }
  split. { intros p ->%Hn. split; [vm_compute; intuition discriminate|]. intros r Hr. vm_compute in Hr. discriminate. }
  split. { intros p ->%Hn [[_ H]|(r & x & H & _)]; vm_compute in H; discriminate. }
  split; [vm_compute; reflexivity|discriminate].
Qed.
Print Assumptions C35_marker_in_host_refuted.
(** A wildcard without a dot after the star covers hosts in the middle of a label *)
Theorem C39_wildcard_inside_label_refuted : exists E cfg fa raw r x bps,
  try_from E cfg = Some fa /\ asks E raw /\ names cfg (star :: r) /\ raw = x ++ r /\
  ~ In dot x /\ x <> [] /\ ~ In dot (firstn 1 r) /\ offered E fa = Some bps /\ bps <> [].
Proof.
  exists (Er "notexample.com"), (rcfg [rset "s" ["*example.com"%string] []]), (rfac "notexample.com" [rset "s" ["*example.com"%string] []]), (tx "notexample.com"), (tx "example.com"), (tx "not").
  eexists. split; [vm_compute; reflexivity|]. split; [vm_compute; auto|]. split.
  { eexists. split; [left; reflexivity|left; reflexivity]. }
  split; [reflexivity|]. split; [vm_compute; intuition discriminate|]. split; [discriminate|]. split; [vm_compute; intuition discriminate|].
  split; [vm_compute; reflexivity|discriminate].
Qed.
Print Assumptions C39_wildcard_inside_label_refuted.
(** Another metric than [misses] changes for a host that is not configured *)
Theorem C40_allowed_metric_refuted : exists E cfg fa raw h l,
  try_from E cfg = Some fa /\ asks E raw /\ host_of raw h /\ (forall p, names cfg p -> ~ covers p h) /\ later l /\
  In (EvMetric MAllowed) (f_log (run E fa l)).
Proof.
  exists (Er "com"), (rcfg rsets), (rfac "com" rsets), (tx "com"), (tx "com"), [InRespHeaders].
  split; [vm_compute; reflexivity|]. split; [vm_compute; auto|]. split.
  { exists (tx "com"), []. split; [reflexivity|]. split; [vm_compute; intuition discriminate|]. split; [now left|reflexivity]. }
  split; [apply ex40|]. split; [intros [H|[]]; discriminate|]. find.
Qed.
Print Assumptions C40_allowed_metric_refuted.
