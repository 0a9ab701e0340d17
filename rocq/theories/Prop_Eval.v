(** C32, C56, C57, C58, C59, C81: what an expression sees. *)
From Coq Require Import Ascii String List NArith ZArith Bool Lia Arith.
From Verif Require Import Base Value Headers AttrPath Ctx CelProps CelEval P_Frame P_Plan P_Route Prop_Paths P_Eval P_Props Demo.
Import ListNotations.
Open Scope list_scope.

(** * Specifications *)
(** The specifications are in P_Props.v ([chain], [mentions], [tidy], [clean]: which attribute paths stand in a
    syntax tree) and P_Eval.v ([decided E c P q r]: with the paths [P] collected, [q] is the place where a walk
    along one of them meets the first collected, stored or reserved path; it is read there, giving [r];
    [host_read]: reading an attribute of the host as a value of its type; [body_missing]). *)
(** with the variables [vs], the selection [q0.q1.q2…] has the value [v] *)
Definition sees (q : path) (vs : vars) (v : value) : Prop :=
  match q with
  | [] => False
  | t :: q' => exists w, tget t vs = Some w /\ vlook q' w = Some v
  end.
(** names the evaluator binds itself *)
Definition bindable (q : path) : Prop :=
  match q with
  | [] => False
  | t :: q' => json_name t = false /\
      (is_host_root t = false \/ In t [tx "metadata"; tx "source"; tx "destination"] \/
       (t = tx "request" /\ match q' with f :: _ => f <> tx "grpc" | [] => False end))
  end.
(** nothing is stored or going to be stored at [q] or a shorter path *)
Definition not_stored (c : ctx) (q : path) : Prop := forall a b, q = a ++ b -> a <> [] -> unset c a /\ ~ In (joined a) (c_res c).

(** * Proofs *)
Lemma eval_vars_all E e vs c r c' : clean e -> eval_vars E (expr_of e) vs c = (r, c') ->
  match r with
  | RErr => exists q, decided E c (collected e) q RErr
  | RPending => (exists q, decided E c (collected e) q RPending) \/ body_missing (expr_of e) c
  | RAvail vs' => ~ body_missing (expr_of e) c /\ exists m rv, vars_of E (expr_of e) c vs vs' m rv
  end /\ same_reads E c c'.
Proof. intros Hc H. apply eval_vars_spec in H; [exact H|]. now apply expr_tidy_attrs. Qed.
Lemma mget_aset_other k k' (v : value) m : k <> k' -> mget k (aset mkey_eqb (KStr k') v m) = mget k m.
Proof. intros Hn. unfold mget. apply (aget_aset_other mkey_eqb mkey_eqb_eq). now intros [= ->]. Qed.
Lemma mget_aset_same k (v : value) m : mget k (aset mkey_eqb (KStr k) v m) = Some v.
Proof. unfold mget. apply (aget_aset_same mkey_eqb mkey_eqb_eq). Qed.
Lemma vlook_sees E ex c vs vs' m rv q x : vars_of E ex c vs vs' m rv -> bindable q -> vlook q (VMap m) = Some x -> sees q vs' x.
Proof.
  intros Hv Hb Hl. destruct q as [|t q]; [easy|]. destruct Hb as [Hj Hb]. cbn [vlook] in Hl. destruct (mget t m) as [w|] eqn:Hm; [|discriminate].
  cbn [sees]. assert (Hne : mget t m <> None) by congruence. pose proof (vars_get _ _ _ _ _ _ _ t Hv Hj (or_introl Hne)) as Hg. rewrite Hm in Hg. unfold free_name in Hg.
  destruct Hb as [Hr|[Hr|[-> Hq]]].
  - exists w. split; [|exact Hl]. rewrite Hg, Hr, orb_false_r. destruct (text_eqb t (tx "request")) eqn:He; [apply text_eqb_eq in He; subst t; discriminate Hr|reflexivity].
  - exists w. split; [|exact Hl]. rewrite Hg. destruct Hr as [<-|[<-|[<-|[]]]]; reflexivity.
  - cbn in Hg. destruct q as [|f q]; [easy|]. destruct (ex_grpc ex) eqn:He.
    + pose proof (vo_grpc _ _ _ _ _ _ _ Hv He) as Hrv. rewrite Hm in Hrv. exists rv. split; [exact Hg|]. rewrite Hrv. cbn [vlook] in Hl. destruct w; try discriminate. cbn [vlook].
      destruct (fst (resolve_grpc E c)); [rewrite mget_aset_other by exact Hq|]; exact Hl.
    + pose proof (vo_req _ _ _ _ _ _ _ Hv He) as Hrv. rewrite Hm in Hrv. exists rv. split; [exact Hg|]. now rewrite Hrv.
Qed.

(** ** The place where a path is decided *)
Lemma first_prefix (D : path -> Prop) : (forall w, D w \/ ~ D w) -> forall p,
  (exists q more, p = q ++ more /\ q <> [] /\ D q /\ forall q', on_way q' q -> ~ D q') \/ (forall q more, p = q ++ more -> q <> [] -> ~ D q).
Proof.
  intros Hd p. induction p as [|x l IH] using rev_ind; [right; intros q more H Hq; symmetry in H; apply app_eq_nil in H as [-> _]; easy|].
  destruct IH as [(q & more & -> & H1 & H2 & H3)|Hn].
  - left. exists q, (more ++ [x]). split; [now rewrite app_assoc|auto].
  - destruct (Hd (l ++ [x])) as [Hx|Hx].
    + left. exists (l ++ [x]), []. split; [now rewrite app_nil_r|]. split; [now destruct l|]. split; [exact Hx|]. intros q' (Hq & r & Hr & He).
      destruct (exists_last Hr) as (r' & y & ->). rewrite app_assoc in He. apply app_inj_tail in He as [He _]. eapply Hn; eauto.
    + right. intros q more He Hq Hdq. destruct more as [|y more'] using rev_ind; [rewrite app_nil_r in He; now subst q|].
      rewrite app_assoc in He. apply app_inj_tail in He as [He _]. eapply Hn; eauto.
Qed.
Lemma decided_somewhere E c P p : In p P -> p <> [] -> root_known c (hd [] p) -> exists q more r, p = q ++ more /\ decided E c P q r.
Proof.
  intros Hp Hne Hk. set (D := fun w => In w P \/ ~ unset c w \/ In (joined w) (c_res c)).
  assert (Hdec : forall w, D w \/ ~ D w).
  { intros w. unfold D, unset. destruct (in_dec path_dec w P); [tauto|]. destruct (in_dec text_eq_dec (joined w) (c_res c)); [tauto|].
    destruct (tget (joined w) (c_vals c)); [left; right; left; discriminate|right; intros [H|[H|H]]; auto]. }
  destruct (first_prefix D Hdec p) as [(q & more & -> & H1 & H2 & H3)|Hn]; [|exfalso; apply (Hn p []); [now rewrite app_nil_r|exact Hne|now left]].
  assert (Hkq : root_known c (hd [] q)) by (destruct q; [easy|exact Hk]).
  assert (Hu : forall w, {unset c w} + {~ unset c w}) by (intros w; unfold unset; destruct (tget (joined w) (c_vals c)); [right; discriminate|now left]).
  assert (Hbase : forall r, ((exists v, tget (joined q) (c_vals c) = Some v /\ r = RAvail v) \/ (unset c q /\ In (joined q) (c_res c) /\ r = RPending) \/
   (unset c q /\ ~ In (joined q) (c_res c) /\ In q P /\ root_known c (hd [] q) /\ r = host_read E c q)) -> exists q0 more0 r0, q ++ more = q0 ++ more0 /\ decided E c P q0 r0).
  { intros r Hr. exists q, more, r. split; [reflexivity|]. split; [exact H1|]. split; [eauto|]. split; [|split; [intros _; exact Hkq|exact Hr]].
    intros q' Hq'. specialize (H3 q' Hq'). unfold D in H3. split; [tauto|]. split; [destruct (Hu q'); tauto|tauto]. }
  unfold unset in *. destruct (tget (joined q) (c_vals c)) as [v|] eqn:Hv; [apply (Hbase (RAvail v)); left; eauto|].
  destruct (in_dec text_eq_dec (joined q) (c_res c)) as [Hr|Hr]; [apply (Hbase RPending); tauto|]. apply (Hbase (host_read E c q)). right. right. destruct H2 as [H2|[H2|H2]]; [tauto|now elim H2|easy].
Qed.

(** * C58 *)
(** Whatever is collected besides: where a walk along a collected path meets the first collected, stored or
    reserved path, the value found there is what the expression sees at that path.  (Missing from the claim:
    the four host roots the evaluator never binds, and a path longer than another collected one, see below.) *)
Theorem C58_collected_attributes_are_bound_partial E e vs c vs' c' q r :
  clean e -> eval_vars E (expr_of e) vs c = (RAvail vs', c') -> decided E c (collected e) q r -> bindable q ->
  exists x, r = RAvail x /\ sees q vs' x.
Proof.
  intros Hc He Hd Hb. apply eval_vars_all in He as [[_ (m & rv & Hv)] _]; [|exact Hc]. destruct (vo_look _ _ _ _ _ _ _ Hv _ _ Hd) as (x & -> & Hx).
  exists x. split; [reflexivity|]. eapply vlook_sees; eauto.
Qed.
Print Assumptions C58_collected_attributes_are_bound_partial.

(** * C56 *)
(** Every attribute of the request, the source, the destination or the metadata standing in an expression is
    seen with the value the host has for it, or for the shorter attribute standing in the same expression
    it is a part of. *)
Theorem C56_mentioned_attributes_are_seen_partial E e vs c vs' c' p :
  clean e -> tidy e -> eval_vars E (expr_of e) vs c = (RAvail vs', c') ->
  mentions e p -> In (hd [] p) [tx "request"; tx "source"; tx "destination"; tx "metadata"] -> is_grpc_path p = false ->
  not_stored c p ->
  exists q more x, p = q ++ more /\ mentions e q /\ host_read E c q = RAvail x /\ sees q vs' x.
Proof.
  intros Hc Ht He Hm Hr Hg Hs. assert (Hi : In p (collected e)) by now apply expr_paths.
  assert (Hk : root_known c (hd [] p)) by (left; destruct Hr as [<-|[<-|[<-|[<-|[]]]]]; reflexivity).
  destruct (decided_somewhere E c _ _ Hi (mentions_nonempty _ _ Hm) Hk) as (q & more & r & -> & Hd). pose proof Hd as (D1 & _ & _ & _ & D5).
  destruct (Hs q more eq_refl D1) as [S1 S2]. destruct D5 as [(v & D5 & _)|[(_ & D5 & _)|(_ & _ & D6 & _ & ->)]]; [unfold unset in S1; congruence|easy|].
  apply expr_paths in D6; [|exact Ht]. destruct D6 as [Hmq Hgq].
  destruct (C58_collected_attributes_are_bound_partial _ _ _ _ _ _ _ _ Hc He Hd) as (x & Hx & Hsee).
  { destruct q as [|t q]; [easy|]. cbn [app hd] in Hr. cbn [bindable]. split; [destruct Hr as [<-|[<-|[<-|[<-|[]]]]]; reflexivity|].
    destruct Hr as [<-|[<-|[<-|[<-|[]]]]]; [|right; left; cbn; tauto..]. right. right. split; [reflexivity|].
    destruct (collected_clean e (tx "request" :: q) Hc) as [(a & b & q' & [= _ ->]) _]; [apply expr_paths; [exact Ht|now split]|].
    intros ->. discriminate Hgq. }
  exists q, more, x. auto.
Qed.
Print Assumptions C56_mentioned_attributes_are_seen_partial.

(** * C57 *)
(** Only attributes standing in a tidy expression are collected … *)
Theorem C57_collected_attributes_are_mentioned_partial e q : tidy e -> In q (collected e) -> mentions e q.
Proof. intros Ht Hq. now apply expr_paths in Hq. Qed.
Print Assumptions C57_collected_attributes_are_mentioned_partial.
(** … and only they (and the path of a gRPC request) are ever fetched for it. *)
Theorem C57_only_mentioned_attributes_are_fetched_partial E e vs c r c' k :
  tidy e -> eval_vars E (expr_of e) vs c = (r, c') ->
  tget k (c_cache c') <> None -> tget k (c_cache c) = None ->
  exists p, k = path_show p /\ (mentions e p \/ (p = [tx "request"; tx "url_path"] /\ exists q, mentions e (tx "request" :: tx "grpc" :: q))).
Proof.
  intros Ht He H1 H2. apply eval_vars_fe in He. destruct (He k H1) as [H|(p & [Hp|[Hg ->]] & ->)]; [easy| |].
  - exists p. split; [reflexivity|]. left. now apply C57_collected_attributes_are_mentioned_partial.
  - exists [tx "request"; tx "url_path"]. split; [reflexivity|]. right. split; [reflexivity|]. apply expr_grpc in Hg as (q & Hm & Hq); [|exact Ht].
    destruct q as [|a [|b q]]; try discriminate. cbn [is_grpc_path] in Hq. apply andb_prop in Hq as [Ha Hb]. apply text_eqb_eq in Ha, Hb. subst. now exists q.
Qed.
Print Assumptions C57_only_mentioned_attributes_are_fetched_partial.

(** * C59 *)
(** If something an expression needs is not there yet (an attribute the host has not got yet, a value an action
    is still going to store, a field of a body) and nothing fails, the evaluation is pending;
    if nothing is missing it is not. *)
Theorem C59_waiting_expressions_are_pending E e vs c :
  clean e ->
  ((forall q, ~ decided E c (collected e) q RErr) ->
   (exists q, decided E c (collected e) q RPending) \/ body_missing (expr_of e) c -> fst (fst (eval_in E (expr_of e) vs c)) = RPending) /\
  ((forall q, ~ decided E c (collected e) q RPending) -> ~ body_missing (expr_of e) c -> fst (fst (eval_in E (expr_of e) vs c)) <> RPending) /\
  ((forall q, ~ decided E c (collected e) q RErr) -> fst (eval_vars E (expr_of e) vs c) <> RErr).
Proof.
  intros Hc. unfold eval_in. destruct (eval_vars E (expr_of e) vs c) as [r c'] eqn:He. apply eval_vars_all in He as [He _]; [|exact Hc]. split; [|split].
  - intros Hn Hw. destruct r as [|vs'|]; [reflexivity| |destruct He as (q & He); now apply Hn in He].
    exfalso. destruct He as [Hb (m & rv & Hv)]. destruct Hw as [(q & Hq)|Hw]; [|easy]. destruct (vo_look _ _ _ _ _ _ _ Hv _ _ Hq) as (x & [=] & _).
  - intros Hn Hb. destruct r as [|vs'|]; [|destruct (o_cel E (c_log c') (ex_ast (expr_of e)) vs'); discriminate|discriminate]. destruct He as [(q & He)|He]; [now apply Hn in He|easy].
  - intros Hn. cbn [fst]. intros ->. destruct He as (q & He). now apply Hn in He.
Qed.
Print Assumptions C59_waiting_expressions_are_pending.

(** * C32 *)
Lemma joined_root q : long q -> exists r, joined q = hd [] q ++ dot :: r.
Proof. destruct q as [|t [|u q]]; try easy. intros _. now exists (joined (u :: q)). Qed.
(** An expression in which a path stands that some unfinished store action will write (or a longer path), no
    shorter path standing there, being stored or going to be stored: it is never evaluated before the store,
    and it waits unless something else fails. *)
Theorem C32_unstored_paths_are_waited_for_partial E e vs c q more :
  clean e -> In (q ++ more) (collected e) -> q <> [] -> unset c q -> In (joined q) (c_res c) ->
  (forall q', on_way q' q -> ~ In q' (collected e) /\ unset c q' /\ ~ In (joined q') (c_res c)) ->
  (forall vs' c', eval_vars E (expr_of e) vs c <> (RAvail vs', c')) /\
  ((forall q, ~ decided E c (collected e) q RErr) -> fst (fst (eval_in E (expr_of e) vs c)) = RPending).
Proof.
  intros Hc Hi Hq Hu Hr Hw. assert (Hd : decided E c (collected e) q RPending).
  { split; [exact Hq|]. split; [now exists more|]. split; [exact Hw|]. split; [|right; left; auto]. intros Hl. right. right. exists (joined q). split; [exact Hr|]. now apply joined_root. }
  split.
  - intros vs' c' He. apply eval_vars_all in He as [[_ (m & rv & Hv)] _]; [|exact Hc]. now destruct (vo_look _ _ _ _ _ _ _ Hv _ _ Hd) as (x & [=] & _).
  - intros Hn. apply (C59_waiting_expressions_are_pending E e vs c Hc); [exact Hn|]. left. now exists q.
Qed.
Print Assumptions C32_unstored_paths_are_waited_for_partial.
(** … and after the store it sees exactly the value stored. *)
Theorem C32_stored_values_are_seen_partial E e vs c vs' c' q more v :
  clean e -> eval_vars E (expr_of e) vs c = (RAvail vs', c') ->
  In (q ++ more) (collected e) -> bindable q -> tget (joined q) (c_vals c) = Some v ->
  (forall q', on_way q' q -> ~ In q' (collected e) /\ unset c q' /\ ~ In (joined q') (c_res c)) ->
  sees q vs' v.
Proof.
  intros Hc He Hi Hb Hv Hw. assert (Hq : q <> []) by now destruct q. assert (Hd : decided E c (collected e) q (RAvail v)).
  { split; [exact Hq|]. split; [now exists more|]. split; [exact Hw|]. split; [|left; eauto]. intros Hl. right. left. exists (joined q), v. split; [now apply (aget_In text_eqb text_eqb_eq) in Hv|]. now apply joined_root. }
  destruct (C58_collected_attributes_are_bound_partial _ _ _ _ _ _ _ _ Hc He Hd Hb) as (x & [= ->] & Hx). exact Hx.
Qed.
Print Assumptions C32_stored_values_are_seen_partial.
(** A value stored under a single name is seen under that name, selected from or not. *)
Lemma stored_vars_get m c n v : NoDup (map fst (c_vals c)) -> tget n (c_vals c) = Some v -> ~ In dot n -> mget n m = None -> tget n (rev (stored_vars m c)) = Some v.
Proof.
  intros Hnd Hv Hdot Hm.
  assert (Hk : forall l, NoDup (map fst l) -> NoDup (map fst (flat_map (fun kv : text * value => if text_eqb (before_char dot (fst kv)) (fst kv) then match mget (fst kv) m with Some _ => [] | None => [kv] end else []) l))).
  { induction l as [|[k w] l IH]; [constructor|]. cbn [map fst flat_map]. intros H. inversion H as [|? ? N1 N2]; subst. specialize (IH N2).
    destruct (text_eqb (before_char dot k) k); [|exact IH]. destruct (mget k m); [exact IH|]. cbn [app map fst]. constructor; [|exact IH]. intros Hi. apply N1.
    apply in_map_iff in Hi as ((k' & w') & Hk & Hi). cbn in Hk. subst k'. apply in_flat_map in Hi as ((k2 & w2) & H1 & H2). cbn [fst] in H2. destruct (text_eqb _ _); [|easy]. destruct (mget k2 m); [easy|]. destruct H2 as [[= -> ->]|[]].
    apply in_map_iff. now exists (k, w'). }
  unfold stored_vars. rewrite tget_rev by (apply Hk; exact Hnd). apply In_tget; [apply Hk; exact Hnd|]. apply in_flat_map. exists (n, v). split; [now apply (aget_In text_eqb text_eqb_eq) in Hv|]. cbn [fst].
  assert (Hb : before_char dot n = n).
  { clear - Hdot. induction n as [|ch n IH]; [reflexivity|]. cbn [before_char]. destruct (Ascii.eqb_spec ch dot) as [->|Hn]; [elim Hdot; now left|]. f_equal. apply IH. intros H. apply Hdot. now right. }
  rewrite Hb, text_eqb_refl, Hm. now left.
Qed.
Theorem C32_values_stored_under_a_name_are_seen_partial E e vs c vs' c' n v :
  clean e -> eval_vars E (expr_of e) vs c = (RAvail vs', c') -> NoDup (map fst (c_vals c)) ->
  tget n (c_vals c) = Some v -> ~ In dot n -> is_host_root n = false -> json_name n = false ->
  tget n vs' = Some v.
Proof.
  intros Hc He Hnd Hv Hdot Hh Hj. pose proof He as He'. apply eval_vars_all in He' as [[_ (m & rv & Hvo)] _]; [|exact Hc]. destruct (mget n m) as [w|] eqn:Hm.
  - pose proof Hm as Hi. unfold mget in Hi. apply (aget_In mkey_eqb mkey_eqb_eq) in Hi. destruct (vo_keys _ _ _ _ _ _ _ Hvo _ _ Hi) as (t & [= <-] & (more & Hp) & _).
    destruct (C32_stored_values_are_seen_partial E e vs c vs' c' [n] more v Hc He Hp) as (w' & H1 & H2); cbn [joined bindable]; auto.
    + intros q' (Hq & r & Hr & He2). destruct q' as [|x [|y q']]; [easy|destruct r; [easy|discriminate]|discriminate].
    + cbn in H2. now injection H2 as ->.
  - destruct (vo_vs _ _ _ _ _ _ _ Hvo) as (qj & rj & ->). unfold json_name in Hj. apply orb_false_elim in Hj as [J1 J2]. cbn [aget]. rewrite J1, J2.
    rewrite tget_app, rev_app_distr, tget_app, (stored_vars_get _ _ _ _ Hnd Hv Hdot Hm). reflexivity.
Qed.
Print Assumptions C32_values_stored_under_a_name_are_seen_partial.

(** * C81 *)
(** the request is a gRPC call of the method [m] of the service [s] *)
Definition grpc_call (E : env) (c : ctx) (s m : text) : Prop :=
  (exists more, h_reqheader E (c_log c) (tx "content-type") = Some (tx "application/grpc" ++ more)) /\
  fst (read_string E [tx "request"; tx "url_path"] c) = RAvail (Some ("/"%char :: s ++ "/"%char :: m)) /\
  s <> [] /\ m <> [] /\ ~ In "/"%char s /\ ~ In "/"%char m.
Lemma split_once_spec ch s a b : split_once ch s = Some (a, b) <-> s = a ++ ch :: b /\ ~ In ch a.
Proof.
  revert a b. induction s as [|x s IH]; intros a b; cbn [split_once].
  - split; [discriminate|]. intros [H _]. now destruct a.
  - destruct (Ascii.eqb_spec x ch) as [->|Hn].
    + split; [intros [= <- <-]; split; [reflexivity|easy]|]. intros [H1 H2]. destruct a as [|y a]; [now injection H1 as <-|]. injection H1 as -> _. elim H2. now left.
    + destruct (split_once ch s) as [[a' b']|] eqn:Hs; cbn [option_map fst snd].
      * split.
        -- intros [= <- <-]. destruct (proj1 (IH a' b') eq_refl) as [-> H2]. split; [reflexivity|]. intros [H|H]; auto.
        -- intros [H1 H2]. destruct a as [|y a]; [injection H1 as -> _; easy|]. injection H1 as -> H1.
           assert (Some (a', b') = Some (a, b)) as [= -> ->] by (apply IH; split; [exact H1|intros H; apply H2; now right]). reflexivity.
      * split; [discriminate|]. intros [H1 H2]. destruct a as [|y a]; [injection H1 as -> _; easy|]. injection H1 as -> H1.
        assert (@None (text * text) = Some (a, b)) by (apply IH; split; [exact H1|intros H; apply H2; now right]). discriminate.
Qed.
Lemma parse_grpc_path_spec p s m : parse_grpc_path p = Some (s, m) <-> p = "/"%char :: s ++ "/"%char :: m /\ s <> [] /\ m <> [] /\ ~ In "/"%char s /\ ~ In "/"%char m.
Proof.
  unfold parse_grpc_path. destruct p as [|ch p]; [split; [discriminate|intros [[=] _]]|]. destruct (Ascii.eqb_spec ch "/"%char) as [->|Hn]; [|split; [discriminate|intros [[= -> _] _]; easy]].
  assert (X : forall t : text, existsb (Ascii.eqb "/"%char) t = true <-> In "/"%char t).
  { intros t. rewrite existsb_exists. split; [intros (x & H1 & H2); apply Ascii.eqb_eq in H2; now subst|]. intros H. exists "/"%char. split; [exact H|reflexivity]. }
  destruct (split_once "/"%char p) as [[s' m']|] eqn:Hs.
  - apply split_once_spec in Hs as [-> Hs]. destruct s' as [|a s'].
    + split; [discriminate|]. intros (H & H1 & _ & H2 & _). injection H as H. destruct s as [|b s]; [easy|]. injection H as <- _. elim H2. now left.
    + assert (Hu : forall m2, "/"%char :: (a :: s') ++ "/"%char :: m' = "/"%char :: s ++ "/"%char :: m2 -> ~ In "/"%char s -> s = a :: s' /\ m2 = m').
      { intros m2 H Hs2. injection H as H. assert (Some (a :: s', m') = Some (s, m2)) as [= <- <-]; [|now split]. transitivity (split_once "/"%char (s ++ "/"%char :: m2)); [|apply split_once_spec; now split].
        symmetry. apply split_once_spec. split; [now rewrite <- H|exact Hs]. }
      destruct m' as [|b m'].
      * split; [discriminate|]. intros (H & _ & Hm & H2 & _). apply Hu in H as [_ ->]; [easy|exact H2].
      * destruct (existsb (Ascii.eqb "/"%char) (b :: m')) eqn:Hx.
        -- apply X in Hx. split; [discriminate|]. intros (H & _ & _ & H2 & H3). apply Hu in H as [_ ->]; [easy|exact H2].
        -- split; [intros [= <- <-]; split; [reflexivity|]; split; [easy|]; split; [easy|]; split; [exact Hs|]; intros H; apply X in H; congruence|].
           intros (H & _ & _ & H2 & _). apply Hu in H as [-> ->]; [reflexivity|exact H2].
  - split; [discriminate|]. intros (H & _ & _ & H2 & _). injection H as ->. rewrite (proj2 (split_once_spec "/"%char _ s m)) in Hs by now split. discriminate.
Qed.
Lemma resolve_grpc_spec E c : match fst (resolve_grpc E c) with
  | Some g => exists s m, grpc_call E c s m /\ g = VMap [(KStr (tx "service"), VString s); (KStr (tx "method"), VString m)]
  | None => forall s m, ~ grpc_call E c s m
  end.
Proof.
  unfold resolve_grpc, grpc_call. destruct (h_reqheader E (c_log c) _) as [ct|]; [|intros s m [(x & [=]) _]].
  unfold is_grpc_content_type. destruct (starts_with (tx "application/grpc") ct) eqn:Hct.
  - apply starts_with_spec in Hct as (more & ->). destruct (read_string E _ c) as [[|[p|]|] c1]; try (intros s m (_ & [=] & _)).
    cbn [fst]. destruct (parse_grpc_path p) as [[s m]|] eqn:Hp.
    + apply parse_grpc_path_spec in Hp as (-> & Hp). exists s, m. split; [|reflexivity]. split; [now exists more|]. now split.
    + intros s m (_ & [= ->] & Hx). assert (Y : parse_grpc_path ("/"%char :: s ++ "/"%char :: m) = Some (s, m)) by (apply parse_grpc_path_spec; now split). congruence.
  - intros s m [(more & Hmore) _]. injection Hmore as Hmore. assert (Y : starts_with (tx "application/grpc") ct = true) by (apply starts_with_spec; now exists more). congruence.
Qed.
(** For a gRPC call, and only then, [request.grpc] is there, with exactly the names of its service and method. *)
Theorem C81_grpc_service_and_method E e vs c vs' c' :
  clean e -> tidy e -> (exists q, mentions e (tx "request" :: tx "grpc" :: q)) -> unset c [tx "request"] ->
  eval_vars E (expr_of e) vs c = (RAvail vs', c') ->
  (forall s, sees [tx "request"; tx "grpc"; tx "service"] vs' s <-> exists n m, grpc_call E c n m /\ s = VString n) /\
  (forall m, sees [tx "request"; tx "grpc"; tx "method"] vs' m <-> exists s n, grpc_call E c s n /\ m = VString n).
Proof.
  intros Hc Ht (q & Hm) Hu He. apply eval_vars_all in He as [[_ (m & rv & Hv)] _]; [|exact Hc].
  assert (Hg : ex_grpc (expr_of e) = true) by (apply expr_grpc; [exact Ht|]; exists (tx "request" :: tx "grpc" :: q); now split).
  pose proof (vo_grpc _ _ _ _ _ _ _ Hv Hg) as Hrv.
  assert (Hget : tget (tx "request") vs' = Some rv).
  { rewrite (vars_get _ _ _ _ _ _ _ (tx "request") Hv) by (auto; right; exact Hu). reflexivity. }
  assert (Hbase : mget (tx "grpc") (match mget (tx "request") m with Some (VMap l) => l | _ => [] end) = None).
  { destruct (mget (tx "request") m) as [w|] eqn:Hw; [|reflexivity]. unfold mget in Hw. apply (aget_In mkey_eqb mkey_eqb_eq) in Hw. destruct w as [| | | | | | | |l| | |]; try reflexivity.
    destruct (mget (tx "grpc") l) as [y|] eqn:Hy; [|reflexivity]. exfalso. unfold mget in Hy. apply (aget_In mkey_eqb mkey_eqb_eq) in Hy.
    destruct (vo_sub _ _ _ _ _ _ _ Hv _ _ Hw) as [H|[H|(l' & [= <-] & H)]].
    - unfold unset in Hu. cbn [joined] in Hu. congruence.
    - destruct (collected_clean _ _ Hc H) as [(a & b & q' & [=]) _].
    - destruct (H _ _ Hy) as (u & more & [= <-] & Hi). apply collected_In in Hi as [_ Hi]. discriminate. }
  set (base := match mget (tx "request") m with Some (VMap l) => l | _ => [] end) in *. cbn [sees]. pose proof (resolve_grpc_spec E c) as Hres.
  assert (Hun : forall s m s' m', grpc_call E c s m -> grpc_call E c s' m' -> s = s' /\ m = m').
  { intros s1 m1 s2 m2 (_ & H1 & H2) (_ & H3 & H4). rewrite H1 in H3. injection H3 as H3.
    assert (Some (s1, m1) = Some (s2, m2)) as [= -> ->]; [|now split].
    transitivity (parse_grpc_path ("/"%char :: s1 ++ "/"%char :: m1)); [symmetry; apply parse_grpc_path_spec; split; [reflexivity|exact H2]|]. apply parse_grpc_path_spec. split; [now rewrite H3|exact H4]. }
  cbn zeta in Hrv. destruct (fst (resolve_grpc E c)) as [g|].
  - destruct Hres as (s & mm & Hcall & ->). split; intros x; split.
    + intros (w & H1 & H2). rewrite Hget in H1. injection H1 as <-. rewrite Hrv in H2. cbn [vlook] in H2. rewrite mget_aset_same in H2. injection H2 as <-. eauto.
    + intros (n & m' & H1 & ->). destruct (Hun _ _ _ _ Hcall H1) as [-> ->]. exists rv. split; [exact Hget|]. rewrite Hrv. cbn [vlook]. now rewrite mget_aset_same.
    + intros (w & H1 & H2). rewrite Hget in H1. injection H1 as <-. rewrite Hrv in H2. cbn [vlook] in H2. rewrite mget_aset_same in H2. injection H2 as <-. eauto.
    + intros (n & m' & H1 & ->). destruct (Hun _ _ _ _ Hcall H1) as [-> ->]. exists rv. split; [exact Hget|]. rewrite Hrv. cbn [vlook]. now rewrite mget_aset_same.
  - split; intros x; (split; [|intros (n & m' & H1 & _); now apply Hres in H1]); intros (w & H1 & H2); rewrite Hget in H1; injection H1 as <-; rewrite Hrv in H2; cbn [vlook] in H2; rewrite Hbase in H2; discriminate.
Qed.
Print Assumptions C81_grpc_service_and_method.

(** * Examples and counterexamples *)
Open Scope string_scope.
Open Scope list_scope.
Fixpoint dsel_from (e : ast) (p : list string) : ast := match p with [] => e | f :: p' => dsel_from (ASelect e (tx f) false) p' end.
Definition dsel (n : string) (p : list string) : ast := dsel_from (AIdent (tx n)) p.
Definition dpath (p : list string) : path := map tx p.
(** a host which knows a few attributes; the address of the destination is not known yet *)
Definition Ev : env := e_prop E0 (fun _ p =>
  if path_eqb p (dpath ["request"; "path"]) then HOk (Some (tx "/a"))
  else if path_eqb p (dpath ["request"; "url_path"]) then HOk (Some (tx "/pkg.Svc/Get"))
  else if path_eqb p (dpath ["source"; "address"]) then HOk (Some (tx "1.2.3.4:5"))
  else if path_eqb p (dpath ["metadata"; "a"]) then HOk (Some (tx "x"))
  else if path_eqb p (dpath ["metadata"; "a"; "b"]) then HOk (Some (tx "y"))
  else if path_eqb p (dpath ["connection"; "id"]) then HOk (Some (map ascii_of_nat [7; 0; 0; 0; 0; 0; 0; 0]))
  else if path_eqb p (dpath ["destination"; "address"]) then HNotAvail
  else HOk None).
Definition cv : ctx := ctx0 [EvReqHeaders].
(** [cel0] stands for the interpreter; operators are calls without a target *)
Definition dop (f : string) (l : list ast) : ast := ACall None (tx f) l.
Definition dstr (s : string) : ast := ALit (VString (tx s)).

(** [request.path == "/a" && source.address == x.y]: the names of the host are seen, the unknown [x.y] is passed over *)
Definition de1 : ast := dop "_&&_" [dop "_==_" [dsel "request" ["path"]; dstr "/a"]; dop "_==_" [dsel "source" ["address"]; dsel "x" ["y"]]].
Example ex56 : clean de1 /\ tidy de1 /\ mentions de1 (dpath ["request"; "path"]) /\ not_stored cv (dpath ["request"; "path"]) /\
  exists vs' c', eval_vars Ev (expr_of de1) [] cv = (RAvail vs', c') /\
    sees (dpath ["request"; "path"]) vs' (VString (tx "/a")) /\ sees (dpath ["source"; "address"]) vs' (VString (tx "1.2.3.4:5")) /\
    tget (path_show (dpath ["source"; "address"])) (c_cache c') <> None /\ tget (tx "x") vs' = None.
Proof.
  split; [apply cleanb_clean; reflexivity|]. split; [apply tidyb_tidy; reflexivity|].
  split; [eapply me_arg; [left; reflexivity|]; eapply me_arg; [left; reflexivity|]; apply (me_chain (AIdent (tx "request")) (tx "path") false [tx "request"]); constructor|].
  split; [intros a b _ Ha; split; [reflexivity|intros []]|].
  eexists. eexists. split; [vm_compute; reflexivity|]. split; [eexists; split; [vm_compute; reflexivity|vm_compute; reflexivity]|]. split; [eexists; split; [vm_compute; reflexivity|vm_compute; reflexivity]|].
  split; [vm_compute; discriminate|vm_compute; reflexivity].
Qed.
Example ex57 : map (map (fun s => s)) (collected de1) = [dpath ["request"; "path"]; dpath ["source"; "address"]; dpath ["x"; "y"]].
Proof. vm_compute. reflexivity. Qed.
Example ex58 : decided Ev cv (collected de1) (dpath ["source"; "address"]) (RAvail (VString (tx "1.2.3.4:5"))) /\ bindable (dpath ["source"; "address"]).
Proof.
  split; [|split; [reflexivity|right; left; cbn; tauto]]. split; [discriminate|]. split; [exists []; cbn; tauto|]. split.
  - intros q' (Hq & r & Hr & He). destruct q' as [|a [|b [|? ?]]]; try easy; [|destruct r; [easy|discriminate]]. injection He as <- <-. split; [|split; [reflexivity|intros []]].
    cbn. intros [H|[H|[H|[]]]]; discriminate.
  - split; [intros _; left; reflexivity|]. right. right. split; [reflexivity|]. split; [intros []|]. split; [cbn; tauto|]. split; [left; reflexivity|]. vm_compute. reflexivity.
Qed.
(** [destination.address == "a"]: not known yet, so it waits *)
Definition de2 : ast := dop "_==_" [dsel "destination" ["address"]; dstr "a"].
Example ex59 : clean de2 /\ (forall q, ~ decided Ev cv (collected de2) q RErr) /\ decided Ev cv (collected de2) (dpath ["destination"; "address"]) RPending /\
  fst (fst (eval_in Ev (expr_of de2) [] cv)) = RPending /\ fst (eval_vars Ev (expr_of de1) [] cv) <> RPending.
Proof.
  split; [apply cleanb_clean; reflexivity|]. split; [|split; [|split; [vm_compute; reflexivity|vm_compute; discriminate]]].
  - intros q (_ & _ & _ & _ & [(v & H & _)|[(_ & [] & _)|(_ & _ & Hi & _ & H)]]); [discriminate|]. destruct Hi as [<-|[]]. vm_compute in H. discriminate.
  - split; [discriminate|]. split; [exists []; cbn; tauto|]. split.
    + intros q' (Hq & r & Hr & He). destruct q' as [|a [|b [|? ?]]]; try easy; [|destruct r; [easy|discriminate]]. injection He as <- <-. split; [|split; [reflexivity|intros []]].
      cbn. intros [H|[]]; discriminate.
    + split; [intros _; left; reflexivity|]. right. right. split; [reflexivity|]. split; [intros []|]. split; [cbn; tauto|]. split; [left; reflexivity|]. vm_compute. reflexivity.
Qed.
(** [auth.identity.user == "bob"] while a store action for [auth.identity] is unfinished, and after it *)
Definition de3 : ast := dop "_==_" [dsel "auth" ["identity"; "user"]; dstr "bob"].
Definition cw : ctx := with_res cv [tx "auth.identity"].
Definition cs : ctx := with_vals cv [(tx "auth.identity", VMap [(KStr (tx "user"), VString (tx "bob"))]); (tx "n", VInt 3)].
Example ex32 : In (dpath ["auth"; "identity"] ++ [tx "user"]) (collected de3) /\ unset cw (dpath ["auth"; "identity"]) /\ In (joined (dpath ["auth"; "identity"])) (c_res cw) /\
  fst (fst (eval_in Ev (expr_of de3) [] cw)) = RPending /\
  exists vs' c', eval_vars Ev (expr_of de3) [] cs = (RAvail vs', c') /\ sees (dpath ["auth"; "identity"; "user"]) vs' (VString (tx "bob")) /\ tget (tx "n") vs' = Some (VInt 3).
Proof.
  split; [cbn; tauto|]. split; [reflexivity|]. split; [now left|]. split; [vm_compute; reflexivity|].
  eexists. eexists. split; [vm_compute; reflexivity|]. split; [eexists; split; [vm_compute; reflexivity|vm_compute; reflexivity]|]. vm_compute. reflexivity.
Qed.
(** a gRPC request *)
Definition de4 : ast := dop "_==_" [dsel "request" ["grpc"; "service"]; dsel "request" ["path"]].
Definition Eg : env := mkEnv (h_prop Ev) (h_map Ev) (fun _ n => if text_eqb n (tx "content-type") then Some (tx "application/grpc+proto") else None) (h_setprop Ev) (h_setmap Ev) (h_reqbody Ev) (h_respbody Ev) (h_dispatch Ev) (h_grpcresp Ev) (h_reply Ev) (o_parse Ev) (o_cel Ev) (o_json Ev) (o_pointer Ev) (o_jshow Ev) (o_f64 Ev) (o_jnew Ev) (o_jfeed Ev) (o_jraw Ev) (o_jfinish Ev) (o_encode Ev) (o_decode Ev) (o_uuid Ev) (o_trace Ev) (o_span_on Ev) (o_spans Ev) (o_alpha Ev).
Example ex81 : clean de4 /\ tidy de4 /\ mentions de4 (tx "request" :: tx "grpc" :: [tx "service"]) /\ grpc_call Eg cv (tx "pkg.Svc") (tx "Get") /\
  exists vs' c', eval_vars Eg (expr_of de4) [] cv = (RAvail vs', c') /\ sees (dpath ["request"; "grpc"; "service"]) vs' (VString (tx "pkg.Svc")) /\
    sees (dpath ["request"; "grpc"; "method"]) vs' (VString (tx "Get")) /\ sees (dpath ["request"; "path"]) vs' (VString (tx "/a")).
Proof.
  split; [apply cleanb_clean; reflexivity|]. split; [apply tidyb_tidy; reflexivity|].
  split; [eapply me_arg; [left; reflexivity|]; apply (me_chain (ASelect (AIdent (tx "request")) (tx "grpc") false) (tx "service") false [tx "request"; tx "grpc"]); apply (ch_sel _ [tx "request"]); constructor|].
  split; [split; [now exists (tx "+proto")|]; split; [vm_compute; reflexivity|]; split; [discriminate|]; split; [discriminate|]; split; cbn; intuition discriminate|].
  eexists. eexists. split; [vm_compute; reflexivity|]. repeat split; (eexists; split; [vm_compute; reflexivity|vm_compute; reflexivity]).
Qed.

(** An attribute read by index instead of selection is not fetched: [request["path"]] finds no [request]. *)
Theorem C56_indexed_attributes_refuted : exists E e c p v vs' c',
  clean e /\ tidy e /\ e = ACall None (tx "_[_]") [AIdent (tx "request"); ALit (VString (tx "path"))] /\ p = dpath ["request"; "path"] /\
  host_read E c p = RAvail (VString v) /\ v <> [] /\ eval_vars E (expr_of e) [] c = (RAvail vs', c') /\ tget (tx "request") vs' = Some VNull.
Proof.
  exists Ev, (ACall None (tx "_[_]") [AIdent (tx "request"); ALit (VString (tx "path"))]), cv, (dpath ["request"; "path"]), (tx "/a"). eexists. eexists.
  split; [apply cleanb_clean; reflexivity|]. split; [apply tidyb_tidy; reflexivity|]. do 2 (split; [reflexivity|]). split; [vm_compute; reflexivity|]. split; [discriminate|].
  split; [vm_compute; reflexivity|]. vm_compute. reflexivity.
Qed.
Print Assumptions C56_indexed_attributes_refuted.
(** A selection made on the result of a method: [request.path.lowerAscii().size] has [request.path] in it, but another
    path is collected for it and [request.path] is not. *)
Theorem C56_selection_on_method_result_refuted : exists e p, clean e /\ mentions e p /\ p = dpath ["request"; "path"] /\ ~ In p (collected e).
Proof.
  exists (ASelect (ACall (Some (dsel "request" ["path"])) (tx "lowerAscii") []) (tx "size") false), (dpath ["request"; "path"]). split; [apply cleanb_clean; reflexivity|].
  split; [apply me_sel; [intros p Hp; inversion Hp as [|? ? ? ? H]; inversion H|]; apply me_target; apply (me_chain (AIdent (tx "request")) (tx "path") false [tx "request"]); constructor|].
  split; [reflexivity|]. vm_compute. intros [H|[]]. discriminate.
Qed.
Print Assumptions C56_selection_on_method_result_refuted.
Theorem C57_invented_attribute_refuted : exists e q, clean e /\ In q (collected e) /\ ~ mentions e q.
Proof.
  exists (ASelect (ACall (Some (dsel "request" ["path"])) (tx "lowerAscii") []) (tx "size") false), (dpath ["request"; "path"; "size"]). split; [apply cleanb_clean; reflexivity|]. split; [vm_compute; now left|].
  intros H. inversion H as [? ? ? ? Hc|? ? ? ? _ Hm| | | | | | | | | | |]; subst; [inversion Hc|]. inversion Hm as [| |? ? ? ? Hm2|? ? ? ? ? Hi _| | | | | | | | |]; subst; [|easy]. cbn in Hm2.
  inversion Hm2 as [? ? ? q0 Hc Hq|? ? ? ? Hn _| | | | | | | | | | |]; subst; [|eapply Hn; constructor]. inversion Hc; subst. discriminate.
Qed.
Print Assumptions C57_invented_attribute_refuted.
(** The operand need not be a method: in [{"a": 1}.a == request.path] the selection [.a] ends up on [request.path]. *)
Theorem C57_selection_leaks_to_next_operand_refuted : exists e q, clean e /\ In q (collected e) /\ q = dpath ["request"; "path"; "a"] /\
  e = dop "_==_" [ASelect (AMap [(dstr "a", ALit (VInt 1))]) (tx "a") false; dsel "request" ["path"]] /\ ~ In (dpath ["request"; "path"]) (collected e).
Proof.
  eexists. exists (dpath ["request"; "path"; "a"]). split; [|split; [|split; [reflexivity|split; [reflexivity|]]]]; [apply cleanb_clean; reflexivity|vm_compute; now left|vm_compute; intros [H|[]]; discriminate].
Qed.
Print Assumptions C57_selection_leaks_to_next_operand_refuted.
(** Attributes of the connection are collected and fetched, but the evaluator never gets them. *)
Theorem C58_connection_is_never_bound_refuted : exists E e c p v vs' c',
  clean e /\ tidy e /\ In p (collected e) /\ p = dpath ["connection"; "id"] /\ host_read E c p = RAvail v /\
  eval_vars E (expr_of e) [] c = (RAvail vs', c') /\ tget (tx "connection") vs' = None.
Proof.
  exists Ev, (dsel "connection" ["id"]), cv, (dpath ["connection"; "id"]), (VUInt 7). eexists. eexists.
  split; [apply cleanb_clean; reflexivity|]. split; [apply tidyb_tidy; reflexivity|]. split; [vm_compute; now left|]. split; [reflexivity|]. split; [vm_compute; reflexivity|].
  split; [vm_compute; reflexivity|]. vm_compute. reflexivity.
Qed.
Print Assumptions C58_connection_is_never_bound_refuted.
(** A shorter attribute takes the place of a longer one. *)
Theorem C58_shorter_attribute_hides_longer_refuted : exists E e c p v vs' c',
  clean e /\ tidy e /\ In p (collected e) /\ host_read E c p = RAvail v /\ bindable p /\
  eval_vars E (expr_of e) [] c = (RAvail vs', c') /\ (forall x, ~ sees p vs' x).
Proof.
  exists Ev, (dop "_==_" [dsel "metadata" ["a"; "b"]; dsel "metadata" ["a"]]), cv, (dpath ["metadata"; "a"; "b"]), (VString (tx "y")). eexists. eexists.
  split; [apply cleanb_clean; reflexivity|]. split; [apply tidyb_tidy; reflexivity|]. split; [vm_compute; tauto|]. split; [vm_compute; reflexivity|]. split; [split; [reflexivity|right; left; cbn; tauto]|].
  split; [vm_compute; reflexivity|]. intros x (w & H1 & H2). vm_compute in H1. injection H1 as <-. vm_compute in H2. discriminate.
Qed.
Print Assumptions C58_shorter_attribute_hides_longer_refuted.
(** A name standing alone is not waited for: [x] is read before the unfinished store action for [x] has stored it. *)
Theorem C32_name_alone_is_not_waited_for_refuted : exists E n c vs' c', In n (c_res c) /\ tget n (c_vals c) = None /\ clean (AIdent n) /\
  eval_vars E (expr_of (AIdent n)) [] c = (RAvail vs', c') /\ tget n vs' = None.
Proof.
  exists Ev, (tx "x"), (with_res cv [tx "x"]). eexists. eexists. split; [now left|]. split; [reflexivity|]. split; [apply cleanb_clean; reflexivity|]. split; [vm_compute; reflexivity|]. vm_compute. reflexivity.
Qed.
Print Assumptions C32_name_alone_is_not_waited_for_refuted.
(** The whole of which a part is going to be stored, or was stored, is read from the host, as null. *)
Theorem C32_whole_of_a_stored_part_is_null_refuted : exists E e c1 c2 v vs1 c1' vs2 c2', clean e /\ tidy e /\ e = dsel "auth" ["identity"] /\
  In (tx "auth.identity.user") (c_res c1) /\ eval_vars E (expr_of e) [] c1 = (RAvail vs1, c1') /\ sees (dpath ["auth"; "identity"]) vs1 VNull /\
  tget (tx "auth.identity.user") (c_vals c2) = Some v /\ eval_vars E (expr_of e) [] c2 = (RAvail vs2, c2') /\ sees (dpath ["auth"; "identity"]) vs2 VNull.
Proof.
  exists Ev, (dsel "auth" ["identity"]), (with_res cv [tx "auth.identity.user"]), (with_vals cv [(tx "auth.identity.user", VString (tx "bob"))]), (VString (tx "bob")). eexists. eexists. eexists. eexists.
  split; [apply cleanb_clean; reflexivity|]. split; [apply tidyb_tidy; reflexivity|]. split; [reflexivity|]. split; [now left|]. split; [vm_compute; reflexivity|]. split; [eexists; split; vm_compute; reflexivity|].
  split; [reflexivity|]. split; [vm_compute; reflexivity|]. eexists; split; vm_compute; reflexivity.
Qed.
Print Assumptions C32_whole_of_a_stored_part_is_null_refuted.
