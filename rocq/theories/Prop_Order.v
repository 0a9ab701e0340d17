(** C01, C02, C03, C20, C76, C77: the order in which the calls of an action set are made. *)
From Coq Require Import String List NArith ZArith Bool Lia Arith Relations.
From Verif Require Import Base Value Headers AttrPath Ctx CelProps CelEval Sse Body Tasks Exec Config Legacy Blueprint Factory Filter
  P_Frame P_Apply P_Exec P_Run P_Inv P_Ids P_Plan P_Order P_Deps Demo DemoCfg.
Import ListNotations.
Open Scope list_scope.

(** * Specifications *)

(** Documented order: action [i] has to wait for [j] *)
Definition sequential (l : list action_cfg) (k : nat) : Prop :=
  exists p tm g op, nth_error l k = Some (CTyped (mkT p tm g true op)).
Definition typed (l : list action_cfg) : Prop := forall a, In a l -> exists t, a = CTyped t.
Definition must_follow (l : list action_cfg) (i j : nat) : Prop :=
  j < i /\ i < length l /\ (sequential l i \/ sequential l j \/ exists k, j < k < i /\ sequential l k).

(** The computed plan names [j] among the dependencies of [i] *)
Definition depends (l : list action_cfg) (i j : nat) : Prop :=
  exists d, nth_error (compute_dependencies l) i = Some d /\ In (nat_text j) d.

(** Actions that make a call *)
Definition calls (a : action_cfg) : Prop :=
  match a with CLegacy _ => True | CTyped (mkT _ _ _ _ (OpGrpc _ _ _ _)) => True | _ => False end.
Definition call_at (l : list action_cfg) (i : nat) : Prop := exists a, nth_error l i = Some a /\ calls a.

(** The request is served by the action set [s] of the configuration *)
Definition serves (E : env) (cfg : plugin_cfg) (fa : factory) (s : action_set) : Prop :=
  In s (pc_sets cfg) /\
  exists svs bp c, cfg_svs cfg = Some svs /\ compile_set E svs (cfg_rsrc E cfg) s = Some bp /\
    select E fa (ctx0 [EvReqHeaders]) =
      (Some (Some (mkBp (bp_name bp) (bp_preds bp) (bp_actions bp ++ cfg_dev svs cfg))), c).

(** Event [e] occurs in [h], [past] being what happened before it *)
Definition occurs (h : log) (e : ev) (past : log) : Prop := exists after, h = after ++ e :: past.
(** a call of [a] was sent and its response has not come back *)
Definition open_call (h : log) (a : text) : Prop :=
  exists after cl k before, h = after ++ EvDispatch a cl (Some k) :: before /\
    forall st sz, ~ In (EvGrpcResp k st sz) after.

(** * Lemmas *)
Lemma sequential_seq_at l k : sequential l k <-> seq_at l k.
Proof.
  split.
  - intros (p & tm & g & op & H). exists (mkT p tm g true op). split; [exact H|reflexivity].
  - intros ([p tm g s op] & H & Hs). simpl in Hs. subst s. now exists p, tm, g, op.
Qed.
Lemma last_seq l : forall i j k, j <= k < i -> seq_at l k -> exists m, j <= m < i /\ seq_at l m /\ quiet_between l m i.
Proof.
  induction i as [|i IH]; intros j k Hk Hs; [lia|].
  destruct (seq_dec l i) as [H|H].
  - exists i. split; [lia|]. split; [exact H|]. intros x Hx. lia.
  - assert (k <> i) by (intros ->; auto). destruct (IH j k) as (m & A & B & C); [lia|exact Hs|].
    exists m. split; [lia|]. split; [exact B|]. intros x Hx. destruct (Nat.eq_dec x i) as [->|Hne]; [exact H|]. apply C. lia.
Qed.
Lemma depends_direct l i j : depends l i j <-> direct l i j.
Proof.
  unfold depends. destruct (nth_error (compute_dependencies l) i) as [d|] eqn:Hd.
  - pose proof (deps_spec l i d Hd) as H. split.
    + intros (d' & [= <-] & Hi). apply H in Hi as (j' & Hj & Hd'). apply nat_text_inj in Hj. now subst.
    + intros Hj. exists d. split; [reflexivity|]. apply H. eauto.
  - split; [intros (d & H & _); discriminate|]. intros [_ H]. exfalso.
    apply nth_error_None in Hd. unfold compute_dependencies in Hd. rewrite deps_from_length in Hd.
    destruct (nth_error l i) eqn:Hn; [|exact H]. assert (nth_error l i <> None) by (rewrite Hn; discriminate).
    apply nth_error_Some in H0. lia.
Qed.
Lemma seq_at_spec l k : seq_at l k -> k < length l.
Proof. intros (t & H & _). apply nth_error_Some. rewrite H. discriminate. Qed.

Lemma classic_between l j i : quiet_between l j i \/ exists k, j < k < i /\ seq_at l k.
Proof.
  induction i as [|i [IH|(k & Hk & Hs)]].
  - left. intros k Hk. lia.
  - destruct (seq_dec l i) as [H|H].
    + destruct (Nat.lt_ge_cases j i) as [Hlt|Hge]; [right; exists i; split; [lia|exact H]|]. left. intros k Hk. lia.
    + left. intros k Hk. destruct (Nat.eq_dec k i) as [->|Hne]; [exact H|]. apply IH. lia.
  - right. exists k. split; [lia|exact Hs].
Qed.

(** one step of the order towards an earlier action *)
Definition typed_at (l : list action_cfg) (i : nat) : Prop := exists t, nth_error l i = Some (CTyped t).
Lemma typed_typed_at l i : typed l -> i < length l -> typed_at l i.
Proof.
  intros Ht Hi. destruct (nth_error l i) as [a|] eqn:Ha; [|apply nth_error_None in Ha; lia].
  destruct (Ht a) as [t ->]; [eapply nth_error_In; eauto|]. now exists t.
Qed.
Lemma follow_step l i j : typed_at l i -> must_follow l i j ->
  direct l i j \/ exists k, j < k < i /\ seq_at l k /\ direct l i k.
Proof.
  intros [t Ha] (Hj & Hi & Hm). unfold direct. rewrite Ha.
  destruct (seq_dec l i) as [Hs|Hs].
  - assert (Hsq : ta_seq t = true) by (destruct Hs as (t' & H1 & H2); congruence). rewrite Hsq.
    destruct (classic_between l j i) as [Hq|(k & Hk & Hsk)].
    + left. auto.
    + right. destruct (last_seq l i (S j) k) as (m & A & B & C); [lia|exact Hsk|]. exists m. repeat split; auto; lia.
  - assert (Hsq : ta_seq t = false).
    { destruct (ta_seq t) eqn:E; [|reflexivity]. exfalso. apply Hs. exists t. auto. } rewrite Hsq.
    assert (Hex : exists k, j <= k < i /\ seq_at l k).
    { rewrite !sequential_seq_at in Hm. destruct Hm as [H|[H|(k & Hk & H)]]; [easy|exists j; split; [lia|exact H]|].
      exists k. split; [lia|]. now apply sequential_seq_at. }
    destruct Hex as (k & Hk & Hsk). destruct (last_seq l i j k Hk Hsk) as (m & A & B & C).
    destruct (Nat.eq_dec m j) as [->|Hne]; [left; auto|right]. exists m. repeat split; auto; lia.
Qed.

Lemma follow_trans l i j k : must_follow l i j -> must_follow l j k -> must_follow l i k.
Proof.
  intros (A1 & A2 & A3) (B1 & B2 & B3). split; [lia|]. split; [exact A2|].
  destruct A3 as [H|[H|(m & Hm & H)]]; [now left| |].
  - right; right. exists j. split; [lia|exact H].
  - right; right. exists m. split; [lia|exact H].
Qed.
Lemma direct_follow l i j : typed l -> direct l i j -> must_follow l i j.
Proof.
  intros Ht [Hj H]. destruct (nth_error l i) as [a|] eqn:Ha; [|easy].
  assert (Hi : i < length l) by (apply nth_error_Some; rewrite Ha; discriminate).
  destruct (Ht a) as [t ->]; [eapply nth_error_In; eauto|]. split; [exact Hj|]. split; [exact Hi|].
  destruct (ta_seq t) eqn:Hs.
  - left. apply sequential_seq_at. exists t. auto.
  - right; left. now apply sequential_seq_at.
Qed.
Lemma follow_path l j : typed l -> forall n i, i <= n -> must_follow l i j -> clos_trans nat (depends l) i j.
Proof.
  intros Ht. induction n as [|n IH]; intros i Hn Hm.
  - destruct Hm. lia.
  - destruct (follow_step l i j) as [H|(k & Hk & Hs & H)]; [apply typed_typed_at; [exact Ht|apply Hm]|exact Hm| |].
    + apply t_step. now apply depends_direct.
    + apply t_trans with k; [apply t_step; now apply depends_direct|]. apply IH; [lia|].
      split; [lia|]. split; [destruct Hm; lia|]. left. now apply sequential_seq_at.
Qed.

Lemma occurs_hist P h : hist P h <-> forall e past, occurs h e past -> P e past.
Proof.
  rewrite hist_spec. split.
  - intros H e past [after Ha]. eapply H; eauto.
  - intros H l2 e l1 Hl. apply H. now exists l2.
Qed.
Lemma In_occurs h e : In e h -> exists past, occurs h e past.
Proof. intros H. apply in_split in H as (a & b & ->). exists b. now exists a. Qed.
Lemma occurs_In h e past e' : occurs h e past -> In e' past -> In e' h.
Proof. intros [a ->] H. apply in_or_app. right. now right. Qed.
Lemma occurs_trans h e past e' past' : occurs h e past -> occurs past e' past' -> occurs h e' past'.
Proof. intros [a ->] [b ->]. exists (a ++ e :: b). now rewrite <- app_assoc. Qed.

(** what holds of every request served by a configuration *)
Lemma request_plan E cfg fa l : try_from E cfg = Some fa -> later l ->
  (forall b c, select E fa (ctx0 [EvReqHeaders]) = (Some (Some b), c) -> AL E (b_dl (bp_actions b)) (f_log (run E fa l))) /\ (forall a, calls_of a (f_log (run E fa l)) <= 1).
Proof.
  intros Hf Hl.
  assert (K : forall D, plan D -> (forall p, build E fa (ctx0 [EvReqHeaders]) = BOk p -> A E D [] (p_emit (EvMetric MHits) p)) ->
            AL E D (f_log (run E fa l))).
  { intros D HD Hb. pose proof (A_finv E D HD) as HI. apply (holds_log (A E D) (AL E D)); [intros q; apply A_AL|].
    apply request_invariant; [exact HI|exact Hb| | | |exact Hl].
    - split; [intros a; unfold calls_of; simpl; lia|]. split; [repeat split|]. intros _. repeat split.
    - split; [intros a; unfold calls_of; simpl; lia|]. split; [repeat split|]. intros _. repeat split.
    - intros ok. split; [intros a; unfold calls_of; simpl; lia|]. split; [repeat split|]. intros _. repeat split. }
  assert (Q : forall b c, select E fa (ctx0 [EvReqHeaders]) = (Some (Some b), c) -> AL E (b_dl (bp_actions b)) (f_log (run E fa l))).
  { intros b c Hs. destruct (select_served E cfg fa _ _ _ Hf Hs) as (svs & H1 & H2). apply K.
    - eapply served_plan; eauto.
    - intros p Hp. destruct (A_start E cfg fa p Hf Hp) as (b' & svs' & B1 & B2 & B3 & B4).
      destruct (bt_sel _ _ _ _ _ B1) as [c' Hs']. rewrite Hs in Hs'. injection Hs' as -> _. exact B4. }
  split; [exact Q|].
  destruct (build E fa (ctx0 [EvReqHeaders])) as [p|c|c|c] eqn:Hb.
  - destruct (A_start E cfg fa p Hf Hb) as (b' & svs' & B1 & B2 & B3 & B4).
    destruct (bt_sel _ _ _ _ _ B1) as [c' Hs']. exact (proj1 (Q _ _ Hs')).
  - refine (proj1 (K [] _ _)); [constructor; simpl; tauto|discriminate].
  - refine (proj1 (K [] _ _)); [constructor; simpl; tauto|discriminate].
  - refine (proj1 (K [] _ _)); [constructor; simpl; tauto|discriminate].
Qed.

Lemma compile_dl E svs rd i cf d a : compile_action E svs rd (i, (cf, d)) = Some a -> calls cf -> In (nat_text i, d) (a_dl a).
Proof.
  assert (K : forall p tm g sq v sv m rs, option_map (set_deps d) (compile_typed E svs (mkT p tm g sq (OpGrpc v sv m rs)) (nat_text i)) = Some a ->
            In (nat_text i, d) (a_dl a)).
  { intros p tm g sq v sv m rs. rewrite compile_typed_grpc. destruct (parse_expr E p); [|discriminate].
    destruct (tget sv svs) as [[k s|]|]; try discriminate. destruct (compile_replies E svs (nat_text i) 0 rs) as [rs'|]; [|discriminate].
    destruct (parse_expr E m); [|discriminate]. intros [= <-]. cbn [a_dl set_deps]. now left. }
  destruct cf as [[p tm g sq op]|lg]; cbn [compile_action calls].
  - destruct op; try easy. intros H _. eapply K; eauto.
  - unfold compile_legacy. destruct (tget (la_service lg) svs) as [[k s|]|]; try discriminate.
    destruct k; try discriminate; unfold translate_auth, translate_ratelimit, translate_report; intros H _; eapply K; eauto.
Qed.
Lemma serves_dl E cfg fa s : serves E cfg fa s -> exists b c, select E fa (ctx0 [EvReqHeaders]) = (Some (Some b), c) /\ forall i d, call_at (as_actions s) i -> nth_error (compute_dependencies (as_actions s)) i = Some d -> In (nat_text i, d) (b_dl (bp_actions b)).
Proof.
  intros (Hin & svs & bp & c & H1 & H2 & H3). eexists _, c. split; [exact H3|]. cbn [bp_actions].
  intros i d (cf & Hcf & Hc) Hd. apply compile_set_compiled in H2. unfold b_dl. rewrite flat_map_app. apply in_or_app. left.
  assert (Hi : i < length (bp_actions bp)).
  { rewrite (cm_len _ _ _ _ _ H2). apply nth_error_Some. rewrite Hcf. discriminate. }
  destruct (nth_error (bp_actions bp) i) as [a|] eqn:Ha; [|apply nth_error_None in Ha; lia].
  destruct (cm_nth _ _ _ _ _ H2 i a Ha) as (cf' & d' & B1 & B2 & B3).
  rewrite Hcf in B1. injection B1 as <-. rewrite Hd in B2. injection B2 as <-.
  apply in_flat_map. exists a. split; [eapply nth_error_In; eauto|]. eapply compile_dl; eauto.
Qed.

(** a history respecting the computed dependencies *)
Definition respects (s : action_set) (h : log) : Prop :=
  forall i j, call_at (as_actions s) i -> depends (as_actions s) i j ->
  forall past, (occurs h (EvEval (nat_text i)) past \/ occurs h (EvDone (nat_text i)) past \/
                exists cl r, occurs h (EvDispatch (nat_text i) cl r) past) -> In (EvDone (nat_text j)) past.
Lemma served_respects E cfg fa s l : try_from E cfg = Some fa -> serves E cfg fa s -> later l ->
  respects s (f_log (run E fa l)) /\ (fresh_tokens E -> forall a j cl k past, occurs (f_log (run E fa l)) (EvDispatch a cl (Some k)) past ->
     In (EvDone j) past -> ~ open_call past j).
Proof.
  intros Hf Hs Hl. destruct (serves_dl _ _ _ _ Hs) as (b & c & Hsel & Hd).
  destruct (request_plan E cfg fa l Hf Hl) as [Q _]. destruct (Q b c Hsel) as (Q1 & Q2 & Q3). split.
  - intros i j Hi (d & Hd1 & Hd2) past Hocc. rewrite occurs_hist in Q2. pose proof (Hd i d Hi Hd1) as HD.
    destruct Hocc as [H|[H|(cl & r & H)]]; apply Q2 in H; exact (H d HD _ Hd2).
  - intros Hfr a j cl k past Hocc Hdn (after & cl' & k' & before & Hp & Hno).
    specialize (Q3 Hfr). rewrite occurs_hist in Q3. apply Q3 in Hocc. apply (Hocc j k' Hdn).
    exists after, cl', before. split; [exact Hp|]. apply Forall_forall. intros e He Ha.
    destruct e; simpl in Ha; try easy. subst. eapply Hno; eauto.
Qed.

(** * C02 *)
(** The plan orders two actions, directly or through others, exactly when one has to
    wait for the other: a sequential action for all earlier ones, every later action for
    a sequential one, and otherwise no order. *)
Theorem C02_plan_is_the_documented_order : forall l, typed l -> forall i j,
  clos_trans nat (depends l) i j <-> must_follow l i j.
Proof.
  intros l Ht i j. split.
  - induction 1 as [i j H|i j k _ IH1 _ IH2]; [|eapply follow_trans; eauto].
    apply direct_follow; [exact Ht|]. now apply depends_direct.
  - intros H. now apply (follow_path l j Ht i).
Qed.
Print Assumptions C02_plan_is_the_documented_order.
(** [0] and [1] parallel, [2] sequential, [3] parallel *)
Example C02_ex : let l := [dcall "soft" false []; dcall "soft" false []; dcall "soft" true []; dcall "soft" false []] in
  typed l /\ must_follow l 2 0 /\ must_follow l 3 1 /\ ~ must_follow l 1 0 /\  compute_dependencies l = [[]; []; [nat_text 0; nat_text 1]; [nat_text 2]].
Proof.
  intros l. split; [intros a [<-|[<-|[<-|[<-|[]]]]]; eexists; reflexivity|].
  assert (H2 : sequential l 2) by (do 4 eexists; reflexivity).
  repeat split; try (simpl; lia); try (left; exact H2).
  - right; right. exists 2. split; [lia|exact H2].
  - intros (_ & _ & [H|[H|(k & Hk & _)]]); [| |lia]; destruct H as (p & tm & g & op & H); discriminate.
Qed.

(** * C01 *)
(** Whenever a typed gRPC action is evaluated or its call is attempted, every action it has
    to wait for has completed -- provided the sequential actions in between are themselves
    gRPC actions (see C03 for the other kinds).  Legacy actions may be mixed in. *)
Theorem C01_evaluated_after_what_it_must_follow : forall E cfg fa s l,
  try_from E cfg = Some fa -> serves E cfg fa s -> later l ->
  forall i j, typed_at (as_actions s) i -> call_at (as_actions s) i -> must_follow (as_actions s) i j ->
  (forall k, j < k < i -> sequential (as_actions s) k -> call_at (as_actions s) k) ->
  forall past, (occurs (f_log (run E fa l)) (EvEval (nat_text i)) past \/
                exists cl r, occurs (f_log (run E fa l)) (EvDispatch (nat_text i) cl r) past) ->
  In (EvDone (nat_text j)) past.
Proof.
  intros E cfg fa s l Hf Hs Hl i j Ht Hi Hm Hc past Hocc.
  destruct (served_respects E cfg fa s l Hf Hs Hl) as [R _].
  assert (G : forall n i, i <= n -> typed_at (as_actions s) i -> call_at (as_actions s) i -> must_follow (as_actions s) i j ->
              (forall k, j < k < i -> sequential (as_actions s) k -> call_at (as_actions s) k) ->
              forall past, (occurs (f_log (run E fa l)) (EvEval (nat_text i)) past \/ occurs (f_log (run E fa l)) (EvDone (nat_text i)) past \/
                exists cl r, occurs (f_log (run E fa l)) (EvDispatch (nat_text i) cl r) past) -> In (EvDone (nat_text j)) past).
  { clear i Ht Hi Hm Hc past Hocc. induction n as [|n IH]; intros i Hn Ht Hi Hm Hc past Hocc; [destruct Hm; lia|].
    destruct (follow_step _ i j Ht Hm) as [H|(k & Hk & Hsk & H)]; apply depends_direct in H.
    - eapply R; eauto.
    - pose proof (R i k Hi H past Hocc) as Hdk. apply In_occurs in Hdk as (past' & Hp').
      assert (Hpp : occurs (f_log (run E fa l)) (EvDone (nat_text k)) past').
      { destruct Hocc as [Ho|[Ho|(cl & r & Ho)]]; eapply occurs_trans; eauto. }
      eapply occurs_In; [exact Hp'|]. apply (IH k); [lia| | | | |right; left; exact Hpp].
      + destruct Hsk as (t & Hsk & _). now exists t.
      + apply Hc; [lia|]. now apply sequential_seq_at.
      + split; [lia|]. split; [now apply seq_at_spec|]. left. now apply sequential_seq_at.
      + intros m Hm' Hsm. apply Hc; [lia|exact Hsm]. }
  apply (G i i); auto. tauto.
Qed.
Print Assumptions C01_evaluated_after_what_it_must_follow.

(** ... and its call is sent only when no call of such an action is open. *)
Theorem C01_no_call_while_awaiting : forall E cfg fa s l,
  fresh_tokens E -> try_from E cfg = Some fa -> serves E cfg fa s -> later l ->
  forall i j, typed_at (as_actions s) i -> call_at (as_actions s) i -> must_follow (as_actions s) i j ->
  (forall k, j < k < i -> sequential (as_actions s) k -> call_at (as_actions s) k) ->
  forall cl k past, occurs (f_log (run E fa l)) (EvDispatch (nat_text i) cl (Some k)) past ->
  ~ open_call past (nat_text j).
Proof.
  intros E cfg fa s l Hfr Hf Hs Hl i j Ht Hi Hm Hc cl k past Hocc.
  destruct (served_respects E cfg fa s l Hf Hs Hl) as [_ R]. eapply R; eauto.
  eapply C01_evaluated_after_what_it_must_follow; eauto.
Qed.
Print Assumptions C01_no_call_while_awaiting.

(** helpers for concrete histories *)
Lemma cut_occurs n h e : nth_error h n = Some e -> occurs h e (skipn (S n) h).
Proof.
  intros H. apply nth_error_split in H as (l1 & l2 & -> & <-). exists l1. f_equal. f_equal.
  rewrite skipn_app. rewrite skipn_all2 by lia. now replace (S (length l1) - length l1) with 1 by lia.
Qed.
Fixpoint open_b (ans : list N) (h : log) (a : text) : bool :=
  match h with
  | [] => false
  | EvDispatch a' _ (Some k) :: h' => (text_eqb a a' && negb (existsb (N.eqb k) ans)) || open_b ans h' a
  | EvGrpcResp k _ _ :: h' => open_b (k :: ans) h' a
  | _ :: h' => open_b ans h' a
  end.
Lemma open_b_ok h a : open_b [] h a = true -> open_call h a.
Proof.
  assert (G : forall h pre ans, (forall k st sz, In (EvGrpcResp k st sz) pre -> In k ans) -> open_b ans h a = true ->
              open_call (pre ++ h) a).
  { clear h. induction h as [|e h IH]; intros pre ans Hp H; [discriminate|].
    assert (K : forall ans, (forall k st sz, In (EvGrpcResp k st sz) (pre ++ [e]) -> In k ans) -> open_b ans h a = true ->
              open_call (pre ++ e :: h) a).
    { intros ans' Hp' H'. replace (pre ++ e :: h) with ((pre ++ [e]) ++ h) by now rewrite <- app_assoc. eapply IH; eauto. }
    assert (N : (forall k st sz, e <> EvGrpcResp k st sz) -> forall k st sz, In (EvGrpcResp k st sz) (pre ++ [e]) -> In k ans).
    { intros He k st sz Hi. apply in_app_or in Hi as [Hi|[Hi|[]]]; [eauto|]. now apply He in Hi. }
    destruct e as [| | | |k0 st0 sz0|a0 cl0 [k0|]|cl0 r0| | | | | | | | | | | | |]; cbn [open_b] in H; try (apply (K ans); [apply N; discriminate|exact H]).
    - apply (K (k0 :: ans)); [|exact H]. intros k st sz Hi. apply in_app_or in Hi as [Hi|[Hi|[]]]; [right; eauto|injection Hi as <- _ _; now left].
    - apply orb_true_iff in H as [H|H]; [|apply (K ans); [apply N; discriminate|exact H]].
      apply andb_true_iff in H as [H1 H2]. apply text_eqb_eq in H1. subst a0. exists pre, cl0, k0, h. split; [reflexivity|].
      intros st sz Hi. apply Hp in Hi. apply negb_true_iff in H2. assert (existsb (N.eqb k0) ans = true); [|congruence].
      apply existsb_exists. exists k0. split; [exact Hi|apply N.eqb_refl]. }
  intros H. apply (G h [] []); [intros ? ? ? []|exact H].
Qed.
Definition done_b (h : log) (a : text) : bool := existsb (fun e => match e with EvDone b => text_eqb a b | _ => false end) h.
Lemma done_b_no h a : done_b h a = false -> ~ In (EvDone a) h.
Proof.
  intros H Hi. assert (done_b h a = true); [|congruence]. apply existsb_exists. exists (EvDone a). split; [exact Hi|]. now apply text_eqb_eq.
Qed.

Ltac serve := split; [now left|]; do 3 eexists; split; [vm_compute; reflexivity|]; split; [vm_compute; reflexivity|]; vm_compute; reflexivity.

(** a parallel call, then a sequential one: the second is sent after the first completes *)
Definition ex01 : list action_cfg := [dcall "hard" false []; dcall "soft" true []].
Example C01_ex :
  try_from Ed (dcfg ex01) = Some (dfac Ed ex01) /\ serves Ed (dcfg ex01) (dfac Ed ex01) (mkSet (tx "s") [tx "h"] [] ex01) /\
  fresh_tokens Ed /\ later [InGrpc 0 0 0] /\ typed_at ex01 1 /\ call_at ex01 1 /\ must_follow ex01 1 0 /\
  (exists cl k past, occurs (f_log (run Ed (dfac Ed ex01) [InGrpc 0 0 0])) (EvDispatch (nat_text 1) cl (Some k)) past).
Proof.
  split; [vm_compute; reflexivity|]. split; [serve|]. split; [exact demo_fresh|]. split; [intros [H|[]]; discriminate|].
  split; [eexists; reflexivity|]. split; [eexists; split; [reflexivity|exact I]|].
  split; [split; [lia|]; split; [simpl; lia|]; left; do 4 eexists; reflexivity|].
  do 3 eexists. exists []. vm_compute. reflexivity.
Qed.

(** * C03 *)
Definition no_call_kind (a : action_cfg) : Prop := ~ calls a.
(** Refuted: a sequential deny runs while the call of an earlier action is open. *)
Definition ex03 : list action_cfg := [dcall "hard" false []; CTyped (ddeny "true" true true)].
Theorem C03_sequential_for_every_kind_refuted : exists E cfg fa s l i j past,
  fresh_tokens E /\ try_from E cfg = Some fa /\ serves E cfg fa s /\ later l /\ typed (as_actions s) /\
  must_follow (as_actions s) i j /\ sequential (as_actions s) i /\
  occurs (f_log (run E fa l)) (EvEval (nat_text i)) past /\ ~ In (EvDone (nat_text j)) past /\ open_call past (nat_text j) /\
  In (EvTerminate (nat_text i)) (f_log (run E fa l)).
Proof.
  exists Ed, (dcfg ex03), (dfac Ed ex03), (mkSet (tx "s") [tx "h"] [] ex03), [], 1, 0.
  exists (skipn 5 (f_log (run Ed (dfac Ed ex03) []))).
  split; [exact demo_fresh|]. split; [vm_compute; reflexivity|]. split; [serve|]. split; [easy|].
  split; [intros a [<-|[<-|[]]]; eexists; reflexivity|].
  assert (Hs : sequential ex03 1) by (do 4 eexists; reflexivity).
  split; [split; [lia|]; split; [simpl; lia|]; now left|]. split; [exact Hs|].
  split; [apply (cut_occurs 4); vm_compute; reflexivity|].
  split; [apply done_b_no; vm_compute; reflexivity|].
  split; [apply open_b_ok; vm_compute; reflexivity|].
  apply (nth_error_In _ 1). vm_compute. reflexivity.
Qed.
Print Assumptions C03_sequential_for_every_kind_refuted.

(** * C20 *)
(** No action makes two calls; the ids of the actions of a served set are all different. *)
Theorem C20_at_most_one_call : forall E cfg fa l, try_from E cfg = Some fa -> later l ->
  forall a cl k past, occurs (f_log (run E fa l)) (EvDispatch a cl (Some k)) past ->
  forall cl' k', ~ In (EvDispatch a cl' (Some k')) past.
Proof.
  intros E cfg fa l Hf Hl a cl k past [after Ho] cl' k' Hin.
  destruct (request_plan E cfg fa l Hf Hl) as [_ H]. specialize (H a). rewrite Ho in H.
  apply in_split in Hin as (x & y & ->). rewrite !calls_app, calls_cons, calls_app, calls_cons in H.
  assert (R : text_eqb a a = true) by now apply text_eqb_eq. simpl in H. rewrite R in H. lia.
Qed.
Print Assumptions C20_at_most_one_call.
Theorem C20_ids_distinct : forall E cfg fa c b c', try_from E cfg = Some fa -> select E fa c = (Some (Some b), c') ->
  NoDup (b_ids (bp_actions b)).
Proof.
  intros E cfg fa c b c' Hf Hs. destruct (select_served _ _ _ _ _ _ Hf Hs) as (svs & _ & H). now apply served_ids in H as [H _].
Qed.
Print Assumptions C20_ids_distinct.
(** a call with one reply action that is itself a call *)
Definition ex20 : list action_cfg :=
  [dcall "soft" false [mkT (tx "true") false true false (OpGrpc (tx "r") (tx "soft") (tx "msg") [])]].
Example C20_ex : try_from Ed (dcfg ex20) = Some (dfac Ed ex20) /\ later [InGrpc 0 0 0; InGrpc 1 0 0] /\
  filter (fun e => match e with EvDispatch _ _ (Some _) => true | _ => false end)
    (f_log (run Ed (dfac Ed ex20) [InGrpc 0 0 0; InGrpc 1 0 0])) <> [].
Proof. split; [vm_compute; reflexivity|]. split; [intros [H|[H|[]]]; discriminate|]. vm_compute. discriminate. Qed.

(** * C76 *)
Definition legacy (l : list action_cfg) : Prop := forall a, In a l -> exists lg, a = CLegacy lg.
(** In a set of legacy actions every action waits for all the earlier ones. *)
Theorem C76_legacy_actions_in_turn : forall E cfg fa s l,
  try_from E cfg = Some fa -> serves E cfg fa s -> later l -> legacy (as_actions s) ->
  forall i j, j < i < length (as_actions s) ->
  forall past, (occurs (f_log (run E fa l)) (EvEval (nat_text i)) past \/
                exists cl r, occurs (f_log (run E fa l)) (EvDispatch (nat_text i) cl r) past) ->
  In (EvDone (nat_text j)) past.
Proof.
  intros E cfg fa s l Hf Hs Hl Hg i j Hij past Hocc.
  destruct (served_respects E cfg fa s l Hf Hs Hl) as [R _].
  assert (G : forall n i, i <= n -> j < i < length (as_actions s) -> forall past,
     (occurs (f_log (run E fa l)) (EvEval (nat_text i)) past \/ occurs (f_log (run E fa l)) (EvDone (nat_text i)) past \/
                exists cl r, occurs (f_log (run E fa l)) (EvDispatch (nat_text i) cl r) past) -> In (EvDone (nat_text j)) past).
  { clear i Hij past Hocc. induction n as [|n IH]; intros i Hn Hij past Hocc; [lia|]. destruct i as [|i]; [lia|].
    destruct (nth_error (as_actions s) (S i)) as [a|] eqn:Ha; [|apply nth_error_None in Ha; lia].
    destruct (Hg a) as [lg ->]; [eapply nth_error_In; eauto|].
    assert (Hd : In (EvDone (nat_text i)) past).
    { apply (R (S i) i); [eexists; split; [exact Ha|exact I]| |exact Hocc]. apply depends_direct. split; [lia|]. rewrite Ha. reflexivity. }
    destruct (Nat.eq_dec i j) as [->|Hne]; [exact Hd|]. apply In_occurs in Hd as (past' & Hp').
    eapply occurs_In; [exact Hp'|]. apply (IH i); [lia|lia|]. right; left.
    destruct Hocc as [Ho|[Ho|(cl & r & Ho)]]; eapply occurs_trans; eauto. }
  apply (G i i); auto. tauto.
Qed.
Print Assumptions C76_legacy_actions_in_turn.
Theorem C76_one_call_at_a_time : forall E cfg fa s l,
  fresh_tokens E -> try_from E cfg = Some fa -> serves E cfg fa s -> later l -> legacy (as_actions s) ->
  forall i j, j < i < length (as_actions s) ->
  forall cl k past, occurs (f_log (run E fa l)) (EvDispatch (nat_text i) cl (Some k)) past -> ~ open_call past (nat_text j).
Proof.
  intros E cfg fa s l Hfr Hf Hs Hl Hg i j Hij cl k past Ho.
  destruct (served_respects E cfg fa s l Hf Hs Hl) as [_ R]. eapply R; eauto. eapply C76_legacy_actions_in_turn; eauto.
Qed.
Print Assumptions C76_one_call_at_a_time.

(** an environment that parses the generated sources (as literals) *)
Definition El : env := e_parse Ed (fun s => match parse_demo s with Some a => Some a | None => Some (ALit (VBool true)) end).
Lemma El_fresh : fresh_tokens El.
Proof. intros l c k [= <-] H. apply next_token_above in H. lia. Qed.
Definition dleg (sv : string) : action_cfg := CLegacy (mkLaction (tx sv) (tx "scope") [] []).
Definition ex76 : list action_cfg := [dleg "auth"; dleg "rl"].
Example C76_ex : try_from El (dcfg ex76) = Some (dfac El ex76) /\ serves El (dcfg ex76) (dfac El ex76) (mkSet (tx "s") [tx "h"] [] ex76) /\
  fresh_tokens El /\ legacy ex76 /\
  (exists cl k past, occurs (f_log (run El (dfac El ex76) [])) (EvDispatch (nat_text 0) cl (Some k)) past).
Proof.
  split; [vm_compute; reflexivity|]. split; [serve|]. split; [exact El_fresh|]. split; [intros a [<-|[<-|[]]]; eexists; reflexivity|].
  do 3 eexists. exists [EvRet true]. vm_compute. reflexivity.
Qed.

(** * C77 *)
(** In a mixed set a legacy action waits for the action just before it (C01 covers the
    typed actions of a mixed set).  Missing: earlier actions it is not chained to. *)
Theorem C77_mixed_sets_partial : forall E cfg fa s l,
  try_from E cfg = Some fa -> serves E cfg fa s -> later l ->
  forall i lg, nth_error (as_actions s) (S i) = Some (CLegacy lg) ->
  forall past, (occurs (f_log (run E fa l)) (EvEval (nat_text (S i))) past \/
                exists cl r, occurs (f_log (run E fa l)) (EvDispatch (nat_text (S i)) cl r) past) ->
  In (EvDone (nat_text i)) past.
Proof.
  intros E cfg fa s l Hf Hs Hl i lg Hi past Hocc.
  destruct (served_respects E cfg fa s l Hf Hs Hl) as [R _]. apply (R (S i) i); [eexists; split; [exact Hi|exact I]| |tauto].
  apply depends_direct. split; [lia|]. rewrite Hi. reflexivity.
Qed.
Print Assumptions C77_mixed_sets_partial.

(** Refuted: with two parallel calls before it, a legacy action's call is sent while the
    first of them is still open. *)
Definition ex77 : list action_cfg := [dcall "soft" false []; dcall "soft" false []; dleg "auth"].
Theorem C77_legacy_waits_for_all_refuted : exists E cfg fa s l i lg j cl k past,
  fresh_tokens E /\ try_from E cfg = Some fa /\ serves E cfg fa s /\ later l /\
  nth_error (as_actions s) i = Some (CLegacy lg) /\ j < i /\
  occurs (f_log (run E fa l)) (EvDispatch (nat_text i) cl (Some k)) past /\ open_call past (nat_text j).
Proof.
  exists El, (dcfg ex77), (dfac El ex77), (mkSet (tx "s") [tx "h"] [] ex77), [InGrpc 1 0 0], 2.
  do 1 eexists. exists 0. do 2 eexists. exists (skipn 1 (f_log (run El (dfac El ex77) [InGrpc 1 0 0]))).
  split; [exact El_fresh|]. split; [vm_compute; reflexivity|]. split; [serve|].
  split; [intros [H|[]]; discriminate|]. split; [reflexivity|]. split; [lia|].
  split; [apply (cut_occurs 0); vm_compute; reflexivity|]. apply open_b_ok. vm_compute. reflexivity.
Qed.
Print Assumptions C77_legacy_waits_for_all_refuted.
