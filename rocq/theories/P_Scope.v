(** Who sees which reply, and which paths are reserved. *)
From Coq Require Import String List NArith Bool Lia Arith Ascii Permutation Sorted.
From Verif Require Import Base Value Headers AttrPath Ctx CelProps CelEval Sse Body ValueBytes Tasks Exec Config Legacy Blueprint Factory Filter
  P_Frame P_Apply P_Exec P_Run P_Inv P_Ids P_Plan P_Order P_Term P_Bar P_Cfg P_Head P_Fed P_Told P_Eff P_Rid.
Import ListNotations.
Open Scope list_scope.

(** * What applying a task does to bindings and stored values *)
(** the value a response binds *)
Definition reply_value (E : env) (s : svc) (kids : nat) (st sz : N) (l : log) : option value :=
  if N.eqb st 0 then
    if Nat.eqb kids 0 then None
    else match h_grpcresp E l sz with Some b => o_decode E l s b | None => None end
  else None.
Definition kept (c c' : ctx) : Prop := c_binds c' = c_binds c /\ c_vals c' = c_vals c.
Lemma kept_refl c : kept c c. Proof. now split. Qed.
Lemma ext_kept c c' : ext c c' -> kept c c'.
Proof. intros (x & -> & _). now split. Qed.
Lemma xrid_kept c c' : xrid c c' -> kept c c'.
Proof. intros (x & r & -> & _). now split. Qed.
Lemma kept_trans a b c : kept a b -> kept b c -> kept a c.
Proof. intros [A1 A2] [B1 B2]. split; congruence. Qed.
Lemma dispatch_kept E mk u s m msg to c r c' : dispatch E mk u s m msg to c = (r, c') -> kept c c'.
Proof.
  unfold dispatch. cbv zeta. destruct (request_id E c) as [rid c1] eqn:Hr. apply request_id_xrid in Hr as [Hr _]. apply xrid_kept in Hr.
  intros [= <- <-]. exact Hr.
Qed.
Definition stored_by (E : env) (K : text -> ctx -> Prop) (id : text) (pred ex : expr) (path : text) (c : ctx) (o : outcome) (c' : ctx) : Prop :=
  c_binds c' = c_binds c /\
  (c_vals c' = c_vals c \/
   exists v, c_vals c' = tset path v (c_vals c) /\ pval E K id pred true (c_log c) /\ eval_to E K id [pred] ex v (c_log c) /\
     (o = ODone \/ exists f, o = OTerminate f)).
Lemma store_value_kept E (K : text -> ctx -> Prop) self id p x path ex tm c0 c o c' : K id c0 -> near E c0 c ->
  store_value E self id p x path ex tm c = (o, c') -> stored_by E K id p x path c o c'.
Proof.
  intros HK HN. unfold store_value. destruct (test_in E p (scope_vars id c) c) as [[r vs] c1] eqn:H1. pose proof (test_in_ext _ _ _ _ _ _ _ H1) as X1.
  pose proof (ext_kept _ _ X1) as [K1 K2]. destruct r as [|[]|]; try (intros [= <- <-]; split; [exact K1|now left]).
  destruct (eval_in E x vs c1) as [[r2 vs2] c2] eqn:H2. pose proof (eval_in_ext _ _ _ _ _ _ _ H2) as X2. pose proof (ext_kept _ _ X2) as [K3 K4].
  assert (KB : c_binds c2 = c_binds c) by congruence. assert (KV : c_vals c2 = c_vals c) by congruence.
  destruct r2 as [|v|]; try (intros [= <- <-]; split; [exact KB|now left]).
  set (y := if ex then _ else _). assert (Hy : c_binds (snd y) = c_binds c /\ c_vals (snd y) = c_vals c).
  { unfold y. destruct ex; [|now split]. destruct (value_bytes v); [|now split]. unfold set_attribute. destruct (h_setprop E _ _ _); now split. }
  destruct y as [ok c3]. cbn [snd] in Hy. destruct Hy as [Hb Hv]. destruct ok; intros [= <- <-]; (split; [exact Hb|]); [|now left].
  right. exists v. destruct (first_val _ _ _ _ _ _ _ _ _ HK HN H1) as [P1 Hin]. destruct (eval_val _ _ _ _ _ _ _ _ _ _ _ HK Hin H2) as [P2 _]. rewrite (ext_log _ _ X1) in P2.
  split; [cbn; now rewrite Hv|]. split; [exact P1|]. split; [exact P2|]. destruct tm; eauto.
Qed.
Lemma apply_kept E (K : text -> ctx -> Prop) t : forall c o c', K (t_id t) c -> store_fed E (c_log c) t -> apply E t c = (o, c') ->
  match core t with
  | TPending id s var rs g =>
      c_vals c' = c_vals c /\ (c_grpc c = None -> c_binds c' = c_binds c) /\
      forall st sz, c_grpc c = Some (st, sz) ->
        match reply_value E s (length rs) st sz (c_log c) with
        | Some v => c_binds c' = bind_insert id var v (c_binds c)
        | None => c_binds c' = c_binds c
        end
  | TStore id p x path ex tm bs => stored_by E K id p x path c o c'
  | _ => kept c c'
  end.
Proof.
  induction t as [id s var msg rs pred deps g|id s var rs g|id g|t IH b|t IH|id p tm|id p hx m tm|id p d tm|id p x path ex tm bs|st fs|]; intros c o c' HK Hsf; unfold store_fed in *; cbn [core apply t_id] in *.
  - unfold apply_dynamic. destruct (test_in E pred _ c) as [[r vs] c1] eqn:H1. apply test_in_ext, ext_kept in H1.
    destruct r as [|[]|]; try (intros [= <- <-]; exact H1).
    destruct (eval_in E msg _ c1) as [[r2 vs2] c2] eqn:H2. apply eval_in_ext, ext_kept in H2. pose proof (kept_trans _ _ _ H1 H2) as H3.
    destruct r2 as [|v|]; try (intros [= <- <-]; exact H3).
    destruct (o_encode E _ s v); [|intros [= <- <-]; exact H3].
    destruct (dispatch E _ _ _ _ _ _ c2) as [r3 c3] eqn:H4. apply dispatch_kept in H4. pose proof (kept_trans _ _ _ H3 H4) as H5.
    destruct r3; intros [= <- <-]; [|exact H5]. destruct g; exact H5.
  - unfold apply_pending, process_response. intros H. assert (Hv : forall (b : bool) c1, c_vals (if b then lower c1 else c1) = c_vals c1 /\ c_binds (if b then lower c1 else c1) = c_binds c1) by (intros []; now split).
    unfold take_grpc in H. destruct (c_grpc c) as [[st sz]|].
    2:{ injection H as <- <-. destruct (Hv g (with_grpc c None)) as [V1 V2]. rewrite V1. split; [reflexivity|]. split; [intros _; exact V2|]. intros st sz. discriminate. }
    cbn [with_grpc c_log] in H. split.
    + destruct (negb (N.eqb st 0)); [injection H as <- <-; now destruct (Hv g (with_grpc c None)) as [-> _]|].
      destruct rs; [injection H as <- <-; now destruct (Hv g (with_grpc c None)) as [-> _]|].
      destruct (h_grpcresp E (c_log c) sz); [|injection H as <- <-; now destruct (Hv g (with_grpc c None)) as [-> _]].
      destruct (o_decode E (c_log c) s _); injection H as <- <-; destruct g; reflexivity.
    + split; [discriminate|]. intros st0 sz0 [= <- <-]. unfold reply_value. destruct (N.eqb st 0); cbn [negb] in H; [|injection H as <- <-; now destruct (Hv g (with_grpc c None)) as [_ ->]].
      destruct rs; cbn [length Nat.eqb]; [injection H as <- <-; now destruct (Hv g (with_grpc c None)) as [_ ->]|].
      destruct (h_grpcresp E (c_log c) sz); [|injection H as <- <-; now destruct (Hv g (with_grpc c None)) as [_ ->]].
      destruct (o_decode E (c_log c) s _); injection H as <- <-; destruct g; reflexivity.
  - unfold apply_noop. intros [= <- <-]. destruct g; now split.
  - destruct (apply E t c) as [o1 c1] eqn:Ha. pose proof (IH _ _ _ HK Hsf Ha) as H.
    assert (KK : forall o2 c2, c_binds c2 = c_binds c1 -> c_vals c2 = c_vals c1 -> (o1 = ODone -> o2 = ODone) -> (forall f, o1 = OTerminate f -> o2 = o1) ->
      match core t with
      | TPending id s var rs g => c_vals c2 = c_vals c /\ (c_grpc c = None -> c_binds c2 = c_binds c) /\ forall st sz, c_grpc c = Some (st, sz) ->
          match reply_value E s (length rs) st sz (c_log c) with Some v => c_binds c2 = bind_insert id var v (c_binds c) | None => c_binds c2 = c_binds c end
      | TStore id p x path ex tm bs => stored_by E K id p x path c o2 c2
      | _ => kept c c2
      end).
    { intros o2 c2 Hb Hv Hd Ht. destruct (core t); unfold kept, stored_by in *; rewrite ?Hb, ?Hv; try exact H.
      destruct H as [H1 [H2|(v & H2 & H3 & H4 & H5)]]; (split; [exact H1|]); [now left|]. right. exists v. repeat split; auto. destruct H5 as [H5|(f & H5)]; [left; auto|]. right. exists f. rewrite (Ht f H5). exact H5. }
    destruct o1; intros [= <- <-]; apply KK; auto; try discriminate.
  - destruct (apply E t c) as [o1 c1] eqn:Ha. pose proof (IH _ _ _ HK Hsf Ha) as H.
    assert (KK : forall o2, (o1 = ODone -> o2 = ODone) -> (forall f, o1 = OTerminate f -> exists f', o2 = OTerminate f') ->
      match core t with
      | TPending id s var rs g => c_vals c1 = c_vals c /\ (c_grpc c = None -> c_binds c1 = c_binds c) /\ forall st sz, c_grpc c = Some (st, sz) ->
          match reply_value E s (length rs) st sz (c_log c) with Some v => c_binds c1 = bind_insert id var v (c_binds c) | None => c_binds c1 = c_binds c end
      | TStore id p x path ex tm bs => stored_by E K id p x path c o2 c1
      | _ => kept c c1
      end).
    { intros o2 Hd Ht. destruct (core t); unfold kept, stored_by in *; try exact H.
      destruct H as [H1 [H2|(v & H2 & H3 & H4 & H5)]]; (split; [exact H1|]); [now left|]. right. exists v. repeat split; auto. destruct H5 as [H5|(f & H5)]; [left; auto|]. right. eauto. }
    destruct o1; intros [= <- <-]; apply KK; try discriminate; eauto.
  - unfold apply_fail. destruct (test_in E p _ c) as [[r vs] c1] eqn:H1. apply test_in_ext, ext_kept in H1.
    destruct r as [|[]|]; try (intros [= <- <-]; exact H1). destruct tm; intros [= <- <-]; exact H1.
  - unfold apply_headers. destruct (test_in E p _ c) as [[r vs] c1] eqn:H1. apply test_in_ext, ext_kept in H1.
    destruct r as [|[]|]; try (intros [= <- <-]; exact H1).
    destruct (eval_in E hx vs c1) as [[r2 vs2] c2] eqn:H2. apply eval_in_ext, ext_kept in H2. pose proof (kept_trans _ _ _ H1 H2) as H3.
    destruct r2 as [|v|]; try (intros [= <- <-]; exact H3).
    destruct (header_pairs v); [intros [= <- <-]; exact H3|]. destruct (read_headers E _ c2) as [r3 c3] eqn:H4. apply read_headers_ext, ext_kept in H4.
    pose proof (kept_trans _ _ _ H3 H4) as H5. destruct r3 as [|h|]; try (intros [= <- <-]; exact H5).
    unfold set_headers. destruct (h_setmap E _ m _); destruct m; intros [= <- <-]; exact H5.
  - unfold apply_reply. destruct (test_in E p _ c) as [[r vs] c1] eqn:H1. apply test_in_ext, ext_kept in H1.
    destruct r as [|[]|]; try (intros [= <- <-]; exact H1).
    destruct (eval_in E d vs c1) as [[r2 vs2] c2] eqn:H2. apply eval_in_ext, ext_kept in H2. pose proof (kept_trans _ _ _ H1 H2) as H3.
    destruct r2 as [|v|]; try (intros [= <- <-]; exact H3). destruct v; try (intros [= <- <-]; exact H3).
    unfold tracker. destruct (c_track c2) as [n|].
    + destruct (request_id E c2) as [rid c3] eqn:Hr. apply request_id_xrid in Hr as [Hr _]. apply xrid_kept in Hr. intros [= <- <-]. exact (kept_trans _ _ _ H3 Hr).
    + intros [= <- <-]. exact H3.
  - unfold apply_store.
    assert (KK : forall src q c1 o c', near E c c1 -> kept c c1 -> (bodies_ok E c1 -> bp_ok E src (c_log c1) q) ->
      match feed_parser E src q c1 with
      | RPending => (ORequeued [TStore id p x path ex tm (BSActive src q)], c1)
      | RErr => (OFailed, c1)
      | RAvail (p', c') => store_value E (TStore id p x path ex tm (BSActive src p')) id p x path ex tm c'
      end = (o, c') -> stored_by E K id p x path c o c').
    { intros src q c1 o0 c0 Hnr [Hk1 Hk2] Hq. pose proof (near_log _ _ _ Hnr) as Hl. destruct (feed_parser E src q c1) as [|[q' c2]|] eqn:Hf.
      - intros [= <- <-]. split; [exact Hk1|now left].
      - pose proof (near_feed _ _ _ _ _ _ Hq Hf) as Hnf. apply feed_parser_frame in Hf as (b & ->). intros H. apply (store_value_kept E K _ id p x path ex tm c _ _ _ HK) in H; [|eapply near_trans; [exact Hnr|exact Hnf]].
        assert (c_log (src_set src b c1) = c_log c1 /\ c_binds (src_set src b c1) = c_binds c1 /\ c_vals (src_set src b c1) = c_vals c1) as (E1 & E2 & E3) by (destruct src; now split).
        unfold stored_by in *. rewrite E1, E2, E3, Hl, Hk1, Hk2 in H. exact H.
      - intros [= <- <-]. split; [exact Hk1|now left]. }
    destruct bs as [|src fields|src q].
    + now apply (store_value_kept E K _ id p x path ex tm c c), near_refl.
    + destruct (create_parser E src fields c) as [r c1] eqn:Hcp.
      assert (near E c c1 /\ kept c c1) as [Hnr Hk].
      { revert Hcp. unfold create_parser. destruct src; [intros [= _ <-]; split; [apply near_refl|apply kept_refl]|]. destruct (read_headers E p_resp_headers c) as [r1 c2] eqn:Hr.
        pose proof (extf_near _ _ _ (read_headers_extf _ _ _ _ _ Hr)) as Hn. apply read_headers_ext in Hr. cbv zeta. destruct r1; intros [= _ <-]; (split; [exact Hn|]); now apply ext_kept. }
      pose proof Hk as [Hk1 Hk2]. destruct r as [|q|]; try (intros [= <- <-]; split; [exact Hk1|now left]). apply KK; auto. intros [Hd _]. now apply create_parser_ok in Hcp as [_ Hcp].
    + apply KK; [apply near_refl|apply kept_refl|intros _; exact Hsf].
  - unfold apply_token. cbv zeta.
    assert (KK : forall s c1 o c', kept c c1 -> match (if (0 <? b_size (c_respb c1))%N then
        match h_respbody E (c_log c1) 0 (b_size (c_respb c1)) with
        | HOk (Some bytes) => RAvail (st_feed bytes s) | HOk None => RAvail s | HNotAvail => RPending | HErr => RErr end else RAvail s) with
      | RPending => (ORequeued [TToken (Some s) fs], c1)
      | RErr => (OFailed, c1)
      | RAvail s' => if b_eos (c_respb c1) then (ODone, with_respb c1 (st_populate E fs s' (c_respb c1))) else (ORequeued [TToken (Some s') fs], c1)
      end = (o, c') -> kept c c').
    { intros s c1 o0 c0 Hk. destruct (if (0 <? b_size (c_respb c1))%N then _ else _); [|destruct (b_eos (c_respb c1))|]; intros [= <- <-]; exact Hk. }
    destruct st as [s|]; [apply KK, kept_refl|]. destruct (read_headers E p_resp_headers c) as [r c1] eqn:Hr. apply read_headers_ext, ext_kept in Hr.
    destruct r; [intros [= <- <-]; exact Hr|now apply KK|intros [= <- <-]; exact Hr].
  - intros [= <- <-]. apply kept_refl.
Qed.

(** * Reservations *)
Lemma apply_keeps E t c o c' : apply E t c = (o, c') -> keeps c c'.
Proof. intros H. apply apply_summary in H. apply H. Qed.
Lemma remove_one_perm x l : In x l -> Permutation l (x :: remove_one x l).
Proof.
  induction l as [|y l IH]; [easy|]. cbn [remove_one]. intros Hi. destruct (text_eqb x y) eqn:He.
  - apply text_eqb_eq in He as ->. reflexivity.
  - destruct Hi as [->|Hi]; [now rewrite text_eqb_refl in He|]. rewrite perm_swap. constructor. now apply IH.
Qed.
Lemma remove_all_perm a : forall l b, Permutation l (a ++ b) -> Permutation (remove_all a l) b.
Proof.
  induction a as [|x a IH]; intros l b H; [exact H|]. change (remove_all (x :: a) l) with (remove_all a (remove_one x l)). apply IH.
  assert (Hi : In x l) by (eapply Permutation_in; [symmetry; exact H|now left]).
  apply remove_one_perm in Hi. rewrite Hi in H. now apply Permutation_cons_inv in H.
Qed.
Lemma ts_paths_app a b : ts_paths (a ++ b) = ts_paths a ++ ts_paths b.
Proof. apply flat_map_app. Qed.
Lemma ts_paths_cons t l : ts_paths (t :: l) = t_paths t ++ ts_paths l.
Proof. reflexivity. Qed.
Lemma step_res E t c o c' : step E t c = (o, c') -> c_res c' = o_paths o ++ remove_all (t_paths t) (c_res c).
Proof.
  unfold step. destruct (apply E t (emit (EvEval (t_id t)) c)) as [o1 c1] eqn:Ha. apply apply_keeps in Ha as (Hr & _).
  change (c_res (emit (EvEval (t_id t)) c)) with (c_res c) in Hr. intros H. injection H as <- <-. rewrite <- Hr. now destruct o1.
Qed.
Lemma step_perm E t c o c' l : step E t c = (o, c') -> Permutation (c_res c) (t_paths t ++ l) -> Permutation (c_res c') (o_paths o ++ l).
Proof. intros H Hp. rewrite (step_res _ _ _ _ _ H). apply Permutation_app_head. now apply remove_all_perm. Qed.
Lemma terminal_res E f c l : Permutation (c_res c) (t_paths f ++ l) -> Permutation (c_res (run_terminal E f c)) l.
Proof.
  intros H. unfold run_terminal. destruct (apply E f c) as [o c1] eqn:Ha. apply apply_keeps in Ha as (Hr & _). cbn. rewrite app_nil_r, Hr.
  now apply remove_all_perm.
Qed.
Lemma drop_res l c m : Permutation (c_res c) (ts_paths l ++ m) -> Permutation (c_res (drop_tasks l c)) m.
Proof. intros H. cbn. now apply remove_all_perm. Qed.
Lemma NoDup_nset {V} k (v : V) d : NoDup (map fst d) -> NoDup (map fst (nset k v d)).
Proof.
  induction d as [|[k' v'] d IH]; intros Hn; [repeat constructor; easy|]. cbn [aset]. destruct (N.eqb k k') eqn:He.
  - apply N.eqb_eq in He as ->. exact Hn.
  - inversion Hn; subst. cbn [map fst]. constructor; [|now apply IH]. intros Hi. apply H1.
    assert (Hk : In k' (map fst (nset k v d)) -> k' = k \/ In k' (map fst d)).
    { clear. induction d as [|[k2 v2] d IH]; cbn; [intros [<-|[]]; auto|]. destruct (N.eqb k k2) eqn:He; cbn; intros [H|H]; auto. destruct (IH H); auto. }
    destruct (Hk Hi) as [->|]; [|assumption]. now rewrite N.eqb_refl in He.
Qed.
Lemma nset_perm k t d : NoDup (map fst d) ->
  Permutation (match nget k d with Some old => t_paths old | None => [] end ++ ts_paths (map snd (nset k t d))) (t_paths t ++ ts_paths (map snd d)).
Proof.
  induction d as [|[k' v'] d IH]; intros Hn; [cbn; now rewrite app_nil_r|]. cbn [aset aget]. destruct (N.eqb k k') eqn:He.
  - cbn [map snd]. change (ts_paths (t :: map snd d)) with (t_paths t ++ ts_paths (map snd d)). change (ts_paths (v' :: map snd d)) with (t_paths v' ++ ts_paths (map snd d)).
    apply Permutation_app_swap_app.
  - cbn [map snd]. change (ts_paths (v' :: ?x)) with (t_paths v' ++ ts_paths x). inversion Hn; subst.
    rewrite Permutation_app_swap_app, IH by assumption. apply Permutation_app_swap_app.
Qed.
Lemma ndel_perm k t d : NoDup (map fst d) -> nget k d = Some t -> Permutation (ts_paths (map snd d)) (t_paths t ++ ts_paths (map snd (ndel k d))).
Proof.
  induction d as [|[k' v'] d IH]; [easy|]. intros Hn. cbn [aget adel]. inversion Hn as [|? ? N1 N2]; subst. destruct (N.eqb k k') eqn:He.
  - intros [= ->]. apply N.eqb_eq in He as ->. fold (ndel k' d). rewrite ndel_absent by assumption. reflexivity.
  - intros H. cbn [map snd]. change (ts_paths (v' :: ?x)) with (t_paths v' ++ ts_paths x). rewrite (IH N2 H). apply Permutation_app_swap_app.
Qed.
Lemma def_insert_perm k t p l : NoDup (map fst (p_def p)) -> Permutation (c_res (p_ctx p)) (l ++ t_paths t ++ ts_paths (dts p)) ->
  Permutation (c_res (p_ctx (def_insert k t p))) (l ++ ts_paths (dts (def_insert k t p))).
Proof.
  intros Hn H. unfold def_insert, dts. cbn [p_ctx p_def]. pose proof (nset_perm k t (p_def p) Hn) as Hp.
  rewrite <- Hp in H. destruct (nget k (p_def p)) as [old|]; [|exact H].
  apply drop_res. cbn [ts_paths flat_map]. rewrite app_nil_r, H. apply Permutation_app_swap_app.
Qed.
Lemma noop_paths d : ts_paths (map snd (map (fun kt : N * task => (fst kt, noop_of (snd kt))) d)) = [].
Proof. induction d as [|[k t] d IH]; [reflexivity|]. exact IH. Qed.

Lemma handle_grpc_res k t st sz c : c_res (emit (EvHandle k (t_id t)) (set_grpc st sz (emit (EvGrpcResp k st sz) c))) = c_res c.
Proof. unfold set_grpc. cbn. now destruct (c_grpc c). Qed.
Lemma handle_grpc_binds k t st sz c : kept c (emit (EvHandle k (t_id t)) (set_grpc st sz (emit (EvGrpcResp k st sz) c))).
Proof. unfold set_grpc. cbn. destruct (c_grpc c); now split. Qed.
Record R (ts : list task) (p : pipe) : Prop := {
  r_nodup : NoDup (map fst (p_def p));
  r_res : Permutation (c_res (p_ctx p)) (ts_paths (items ts p)) }.
Ltac pm := unfold items, dts in *; cbn [p_with_queue p_queue p_def p_ctx p_with_ctx p_with_done app emit with_log c_res] in *; rewrite ?ts_paths_app, ?app_nil_r in *.
Lemma R_step E ts p ts' p' : estep E ts p ts' p' -> R ts p -> R ts' p'.
Proof.
  intros Hs [Hn Hr].
  destruct Hs as [p Hset|t ts p Hb|t ts p o c ts' p' Hb Hst Hx|tok st sz p Hset Hx|tok st sz t p o c Hset Hx Hst|p Hq Ht|a rest p Hq Hx Ht].
  - constructor; [exact Hn|]. pm. exact Hr.
  - constructor; [exact Hn|]. pm. rewrite !ts_paths_cons, !ts_paths_app in *. cbn [ts_paths flat_map] in Hr |- *. rewrite app_nil_r, Hr, <- !app_assoc.
    rewrite Permutation_app_swap_app. apply Permutation_app_head. apply Permutation_app_swap_app.
  - assert (Hc : Permutation (c_res c) (o_paths o ++ ts_paths (items ts p))).
    { eapply step_perm; [exact Hst|]. unfold items in *. rewrite Hr. reflexivity. }
    unfold run_next in Hx. destruct o; injection Hx as <- <-.
    + constructor; [exact Hn|exact Hc].
    + constructor; [unfold def_insert; cbn [p_def p_with_ctx]; now apply NoDup_nset|].
      assert (Hi : items ts (def_insert tok t0 (p_with_ctx p c)) = (ts ++ p_queue p) ++ dts (def_insert tok t0 (p_with_ctx p c))) by (unfold items; cbn; now rewrite app_assoc).
      rewrite Hi, ts_paths_app. apply def_insert_perm; [exact Hn|]. cbn [p_ctx p_with_ctx]. rewrite Hc. unfold items. rewrite app_assoc, ts_paths_app. apply Permutation_app_swap_app.
    + constructor; [exact Hn|]. pm. rewrite Hc. cbn [o_paths]. rewrite <- !app_assoc. rewrite Permutation_app_swap_app. apply Permutation_app_head. apply Permutation_app_swap_app.
    + constructor; [exact Hn|exact Hc].
    + constructor; [exact Hn|]. pm. apply drop_res. apply terminal_res. cbn [o_paths p_ctx p_with_ctx] in *. rewrite Hc, ts_paths_app, <- !app_assoc. apply Permutation_app_head.
      apply Permutation_app_swap_app.
  - constructor; assumption.
  - assert (Hn' : NoDup (map fst (ndel tok (p_def p)))) by now apply NoDup_ndel.
    assert (Hc : Permutation (c_res c) (o_paths o ++ ts_paths (p_queue p) ++ ts_paths (map snd (ndel tok (p_def p))))).
    { eapply step_perm; [exact Hst|]. rewrite handle_grpc_res. pm. rewrite Hr, (ndel_perm tok t) by assumption. apply Permutation_app_swap_app. }
    unfold handle_next. destruct o.
    + constructor; [exact Hn'|]. pm. exact Hc.
    + constructor; [unfold def_insert; cbn [p_def p_with_ctx]; now apply NoDup_nset|].
      unfold items. cbn [app]. rewrite ts_paths_app. apply (def_insert_perm tok0 t0 (p_with_ctx (mkPipe c (p_queue p) (ndel tok (p_def p)) (p_done p) (p_td p) (p_term p)) c)); [exact Hn'|].
      pm. rewrite Hc. apply Permutation_app_swap_app.
    + constructor; [exact Hn'|]. pm. rewrite Hc. cbn [o_paths]. now rewrite <- app_assoc.
    + constructor; [exact Hn'|]. pm. exact Hc.
    + constructor; [exact Hn'|]. pm. apply drop_res, terminal_res. exact Hc.
  - constructor; [cbn [replace_deferred p_def]; now rewrite map_map|]. unfold items, dts in *. cbn [replace_deferred p_queue p_def p_ctx app] in *. rewrite ts_paths_app, noop_paths, app_nil_r in *.
    apply drop_res. rewrite Hr. apply Permutation_app_comm.
  - unfold td_step. destruct (td_exec E a (emit EvTeardown (p_ctx (p_with_td p rest)))) as [r c] eqn:Htd.
    assert (Hc : c_res c = c_res (p_ctx p)).
    { unfold td_exec in Htd. destruct (o_spans E _); [|now injection Htd as <- <-].
      unfold dispatch in Htd. cbv zeta in Htd. destruct (request_id E _) as [rid c1] eqn:Hi. apply request_id_xrid in Hi as [Hi _]. apply xrid_keeps in Hi as (Hi & _).
      injection Htd as <- <-. exact Hi. }
    destruct r as [tok|].
    + constructor; [unfold def_insert; cbn [p_def p_with_ctx p_with_td]; now apply NoDup_nset|].
      unfold items. cbn [app]. rewrite ts_paths_app. apply def_insert_perm; [exact Hn|]. pm. cbn [p_with_td p_queue p_def t_paths app]. now rewrite Hc.
    + constructor; [exact Hn|]. pm. cbn [p_with_td p_queue p_def]. now rewrite Hc.
Qed.

(** Building the pipeline reserves what its tasks will store *)
Lemma to_core_res E a : forall c t c', a_dyn a -> to_core E a c = Some (t, c') -> Permutation (c_res c') (t_paths t ++ c_res c).
Proof.
  induction a as [id p tm s var m rs d g IH|id p tm o d g Ho] using action_ind'; intros c t c'.
  - rewrite to_core_grpc. cbn [a_dyn]. intros [(k & sv & ->) Hd]. apply a_dyn_go in Hd.
    assert (K : forall c ts c1, to_cores E rs c = Some (ts, c1) -> Permutation (c_res c1) (ts_paths ts ++ c_res c)).
    { clear - IH Hd. induction IH as [|r rs Hr _ IH]; intros c ts c1; simpl; [intros [= <- <-]; reflexivity|].
      destruct (to_core E r c) as [[t1 c2]|] eqn:H1; [|discriminate].
      destruct (to_cores E rs c2) as [[ts2 c3]|] eqn:H2; [|discriminate]. intros [= <- <-].
      inversion Hd; subst. apply Hr in H1; [|assumption]. apply IH in H2; [|assumption]. rewrite H2, H1, app_assoc.
      apply Permutation_app_tail. apply Permutation_app_comm. }
    destruct (to_cores E rs c) as [[ts c1]|] eqn:H1; [|discriminate]. apply K in H1. intros [= <- <-].
    pose proof (ext_keeps _ _ (warm_ext E id p m c1)) as (-> & _). cbn [t_paths].
    assert (Hgo : forall l, (fix go l := match l with [] => [] | r :: l' => t_paths r ++ go l' end) l = ts_paths l) by (induction l as [|x l IHl]; cbn; [reflexivity|now rewrite IHl]).
    now rewrite Hgo.
  - destruct o; cbn [to_core]; try (intros _ [= <- <-]; reflexivity). edestruct Ho; reflexivity.
Qed.
Lemma action_tasks_res E rd tr a c ts tds c' : a_dyn a -> action_tasks E rd tr a c = Some (ts, tds, c') -> Permutation (c_res c') (ts_paths ts ++ c_res c).
Proof.
  intros Hd. unfold action_tasks. destruct (to_core E a c) as [[tk c3]|] eqn:H.
  - apply to_core_res in H; [|exact Hd].
    destruct a as [id p tm op d g]. cbn [a_op]. destruct op as [s v m rs|x|x y|x y z|]; try (intros [= <- <- <-]; cbn; now rewrite app_nil_r).
    destruct s as [k s|t]; [|cbn [a_dyn] in Hd; destruct Hd as [(k & sv & [=]) _]]. intros [= <- <- <-]. rewrite ts_paths_app.
    destruct (collect_body_values rd _); destruct tr; cbn; now rewrite app_nil_r.
  - destruct (a_op a) as [s v m rs|x|x y|x y z|]; try discriminate. destruct s as [k s|[t|]]; discriminate.
Qed.
Lemma dev_res E rd tr svs cfg c ts tds c' : actions_tasks E rd tr (cfg_dev svs cfg) c = Some (ts, tds, c') -> Permutation (c_res c') (ts_paths ts ++ c_res c).
Proof.
  unfold cfg_dev. destruct (pc_identifier cfg) as [h|]; cbn [actions_tasks]; [|intros [= <- <- <-]; reflexivity].
  destruct (action_tasks E rd tr (dev_action (cfg_tracing svs cfg) h) c) as [[[t1 td1] c1]|] eqn:H1; [|discriminate]. intros [= <- <- <-].
  rewrite app_nil_r. destruct (cfg_tracing svs cfg) as [k sv|o] eqn:Hc.
  - apply action_tasks_res in H1; [exact H1|]. cbn. split; [eauto|exact Logic.I].
  - unfold action_tasks, dev_action in H1. cbn [a_op] in H1. rewrite to_core_grpc in H1. cbn [to_cores] in H1. cbv zeta in H1.
    destruct (request_id E (with_track c (Some h))) as [rid c3] eqn:Hr. destruct (parse_expr E (tracker_src h rid)) as [hx|]; [|discriminate].
    pose proof (request_id_xrid _ _ _ _ Hr) as [Hx _]. apply xrid_keeps in Hx as (Hx & _). cbn in Hx.
    assert (K : forall b, c_res (if b : bool then snd (request_id E c3) else c3) = c_res c).
    { intros [|]; [|exact Hx]. destruct (request_id E c3) as [r2 c4] eqn:Hr2. cbn. apply request_id_xrid in Hr2 as [Hx2 _]. apply xrid_keeps in Hx2 as (Hx2 & _). congruence. }
    destruct o as [t|]; injection H1 as <- <- <-; cbn; [now rewrite K|now rewrite (K false)].
Qed.
Lemma actions_tasks_res E rd tr l : forall c ts tds c', Forall a_dyn l -> actions_tasks E rd tr l c = Some (ts, tds, c') -> Permutation (c_res c') (ts_paths ts ++ c_res c).
Proof.
  induction l as [|a l IH]; intros c ts tds c' Hd; cbn [actions_tasks]; [intros [= <- <- <-]; reflexivity|].
  destruct (action_tasks E rd tr a c) as [[[t1 td1] c1]|] eqn:H1; [|discriminate].
  destruct (actions_tasks E rd tr l c1) as [[[t2 td2] c2]|] eqn:H2; [|discriminate]. intros [= <- <- <-]. inversion Hd; subst.
  apply action_tasks_res in H1; [|assumption]. apply IH in H2; [|assumption]. rewrite H2, H1, ts_paths_app, app_assoc, (Permutation_app_comm (ts_paths t2)). reflexivity.
Qed.
Lemma R_start E cfg fa p : try_from E cfg = Some fa -> build E fa (ctx0 [EvReqHeaders]) = BOk p -> R [] (p_emit (EvMetric MHits) p).
Proof.
  intros Hf Hb. pose proof (build_spec E fa (ctx0 [EvReqHeaders])) as Hsp. rewrite Hb in Hsp.
  destruct Hsp as (b & c1 & tds & Hs & Ht & Hp & _). destruct (select_served _ _ _ _ _ _ Hf Hs) as (svs & Hsv & Hser).
  unfold to_tasks in Ht. set (c2 := snd (read_headers E p_req_headers c1)) in *.
  assert (Hx : c_res c2 = []).
  { unfold c2. destruct (read_headers E p_req_headers c1) as [r c3] eqn:Hr. apply read_headers_ext, ext_keeps in Hr as (Hr & _). apply select_ext, ext_keeps in Hs as (Hs & _). cbn in *. congruence. }
  assert (Hd : p_def p = []) by (rewrite Hp; reflexivity).
  assert (Hr : Permutation (c_res (p_ctx p)) (ts_paths (p_queue p) ++ c_res c2)).
  { inversion Hser as [s bp Hin Hc Heq|h Hh Heq]; subst b; cbn [bp_actions] in Ht.
    - apply actions_tasks_app in Ht as (ts1 & td1 & c3 & ts2 & td2 & K1 & K2 & ->).
      apply actions_tasks_res in K1; [|eapply compile_set_dyn; eauto]. apply dev_res in K2. rewrite K2, K1, ts_paths_app, app_assoc, (Permutation_app_comm (ts_paths ts2)). reflexivity.
    - now apply dev_res in Ht. }
  constructor; unfold items, dts; cbn [p_emit p_with_ctx p_ctx p_def p_queue emit with_log c_res app]; rewrite Hd; [constructor|].
  cbn [map]. rewrite app_nil_r. rewrite Hx, app_nil_r in Hr. exact Hr.
Qed.

Lemma R_finv E : finv E R (fun _ => True).
Proof.
  constructor; try (intros; exact Logic.I).
  - intros ts p ts' p' Hs. now apply (R_step E).
  - intros p e _ [H1 H2]. now constructor.
  - intros p b [H1 H2]. now constructor.
  - intros p b [H1 H2]. now constructor.
Qed.

(** * Bindings *)
Definition bound (a n : text) (v : value) (b : list (text * list (text * value))) : Prop := exists bs, In (a, bs) b /\ In (n, v) bs.
Lemma bound_insert a n v id m x b : bound a n v (bind_insert id m x b) <-> bound a n v b \/ (a = id /\ n = m /\ v = x).
Proof.
  unfold bound. induction b as [|[s l] b IH]; cbn [bind_insert].
  - split; [intros (bs & [[= <- <-]|[]] & [[= <- <-]|[]]); auto|]. intros [(bs & [] & _)|(-> & -> & ->)]. exists [(m, x)]. split; now left.
  - destruct (text_eqb id s) eqn:He; [apply text_eqb_eq in He as <-|destruct (text_leb id s)].
    + split.
      * intros (bs & [[= <- <-]|Hi] & Hv); [|left; exists bs; split; [now right|exact Hv]].
        apply in_app_iff in Hv as [Hv|[[= <- <-]|[]]]; [left; exists l; split; [now left|exact Hv]|auto].
      * intros [(bs & [[= <- <-]|Hi] & Hv)|(-> & -> & ->)].
        -- exists (l ++ [(m, x)]). split; [now left|apply in_app_iff; now left].
        -- exists bs. split; [now right|exact Hv].
        -- exists (l ++ [(m, x)]). split; [now left|apply in_app_iff; right; now left].
    + split.
      * intros (bs & [[= <- <-]|Hi] & Hv); [destruct Hv as [[= <- <-]|[]]; auto|left; now exists bs].
      * intros [(bs & Hi & Hv)|(-> & -> & ->)]; [exists bs; split; [now right|exact Hv]|exists [(m, x)]; split; now left].
    + split.
      * intros (bs & [[= <- <-]|Hi] & Hv); [left; exists l; split; [now left|exact Hv]|].
        destruct (proj1 IH (ex_intro _ bs (conj Hi Hv))) as [(bs' & Hi' & Hv')|H]; [left; exists bs'; split; [now right|exact Hv']|auto].
      * intros [(bs & [[= <- <-]|Hi] & Hv)|H].
        -- exists l. split; [now left|exact Hv].
        -- destruct (proj2 IH (or_introl (ex_intro _ bs (conj Hi Hv)))) as (bs' & Hi' & Hv'). exists bs'. split; [now right|exact Hv'].
        -- destruct (proj2 IH (or_intror H)) as (bs' & Hi' & Hv'). exists bs'. split; [now right|exact Hv'].
Qed.

(** the history ends with action [a] taking up a response, which it reads as [v] under the name [n] *)
Definition takes (E : env) (N0 : list node) (a n : text) (v : value) (now : log) : Prop :=
  exists k st sz past s g kids,
    now = EvEval a :: EvHandle k a :: EvGrpcResp k st sz :: past /\ ~ over past /\
    In (NCall a s n g kids) N0 /\ reply_value E s (length kids) st sz now = Some v.
Definition replied (E : env) (N0 : list node) (a n : text) (v : value) (l : log) : Prop :=
  exists after now, l = after ++ now /\ takes E N0 a n v now.
Lemma replied_cons E N0 a n v e l : replied E N0 a n v (e :: l) <-> takes E N0 a n v (e :: l) \/ replied E N0 a n v l.
Proof.
  split.
  - intros ([|x after] & now & He & Ht); [left; cbn in He; now subst now|]. injection He as -> ->. right. now exists after, now.
  - intros [H|(after & now & -> & H)]; [now exists [], (e :: l)|now exists (e :: after), now].
Qed.
Definition handled (l : log) : Prop := match l with EvHandle _ _ :: _ => True | _ => False end.
Definition unhandle (e : ev) : Prop := match e with EvHandle _ _ => False | _ => True end.
Lemma replied_quiet E N0 a n v evs l : Forall unhandle evs -> ~ handled l -> (replied E N0 a n v (evs ++ l) <-> replied E N0 a n v l) /\ ~ handled (evs ++ l).
Proof.
  intros He Hl. induction He as [|e evs He _ [IH1 IH2]]; [now split|]. cbn [app]. split.
  - rewrite replied_cons, IH1. split; [|tauto]. intros [(k & st & sz & past & s & g & kids & H & _)|H]; [|exact H].
    injection H as -> H. exfalso. apply IH2. rewrite H. exact Logic.I.
  - destruct e; easy.
Qed.
Lemma quiet_unhandle t evs : Forall (quiet t) evs -> Forall unhandle evs.
Proof. apply Forall_impl. now intros []. Qed.
Lemma final_unhandle evs : Forall final_ev evs -> Forall unhandle evs.
Proof. apply Forall_impl. now intros []. Qed.
Lemma ghost_unhandle t o : Forall unhandle (ghost t o).
Proof. destruct o; repeat constructor. Qed.
Lemma ssum_unhandle E t c o c' evs : ssum E t c o c' evs -> Forall unhandle evs.
Proof. intros H. pose proof (ss_evs _ _ _ _ _ _ H) as He. destruct o; try now apply (quiet_unhandle t). destruct He as (cl & -> & _). repeat constructor. Qed.

(** stored values come from store actions *)
Definition stored (E : env) (K : text -> ctx -> Prop) (N0 : list node) (path : text) (v : value) (l : log) : Prop :=
  exists after a past pred ex export tm, l = after ++ EvEval a :: past /\ In (NStore a pred ex path export tm) N0 /\
    pval E K a pred true (EvEval a :: past) /\ eval_to E K a [pred] ex v (EvEval a :: past).
Lemma stored_app E K N0 path v evs l : stored E K N0 path v l -> stored E K N0 path v (evs ++ l).
Proof. intros (after & a & past & pred & ex & export & tm & -> & H). exists (evs ++ after), a, past, pred, ex, export, tm. now rewrite app_assoc. Qed.

Definition calls_ok (N0 : list node) : Prop :=
  (forall a s n g k s' n' g' k', In (NCall a s n g k) N0 -> In (NCall a s' n' g' k') N0 ->
     (k = [] /\ k' = []) \/ (s = s' /\ n = n' /\ k = k')) /\
  (forall a s n g k, In (NCall a s n g k) N0 -> forall j, a <> tx "teardown_" ++ j).
Definition keys_lt (a b : text * list (text * value)) : Prop := text_leb (fst b) (fst a) = false.
Record V (E : env) (K : text -> ctx -> Prop) (n : nat) (N0 : list node) (ts : list task) (p : pipe) : Prop := {
  v_b : B E n N0 ts p;
  v_head : ~ handled (c_log (p_ctx p));
  v_noop : p_term p = false -> Forall (fun t => is_noop t -> exists j, t_id t = tx "teardown_" ++ j) (dts p);
  v_bound : forall a n v, bound a n v (c_binds (p_ctx p)) <-> replied E N0 a n v (c_log (p_ctx p));
  v_vals : forall path v, tget path (c_vals (p_ctx p)) = Some v -> stored E K N0 path v (c_log (p_ctx p)) }.

Lemma step_apply E t c o c' : step E t c = (o, c') -> exists c1, apply E t (emit (EvEval (t_id t)) c) = (o, c1) /\ kept c1 c'.
Proof. unfold step. destruct (apply E t _) as [o1 c1]. intros H. injection H as <- <-. exists c1. split; [reflexivity|]. destruct o1; now split. Qed.
Lemma drop_kept l c : kept c (drop_tasks l c). Proof. now split. Qed.
Lemma terminal_kept E f c : is_final f -> kept c (run_terminal E f c).
Proof.
  intros Hf. unfold run_terminal. destruct (apply E f c) as [o c1] eqn:Ha. apply (apply_kept E (fun _ _ => True)) in Ha; [|exact Logic.I|apply final_core in Hf as [Hf|Hf]; unfold store_fed; rewrite Hf; exact Logic.I]. apply final_core in Hf as [Hf|Hf]; rewrite Hf in Ha; exact Ha.
Qed.
Lemma def_insert_kept k t p : kept (p_ctx p) (p_ctx (def_insert k t p)).
Proof. unfold def_insert. cbn. destruct (nget k (p_def p)); now split. Qed.
(** evaluating a task that is not a response *)
Lemma step_queue E (K : text -> ctx -> Prop) N0 t c o c' evs : wf_q t -> K (t_id t) (emit (EvEval (t_id t)) c) -> store_fed E (c_log c) t -> incl (nodes t) N0 -> step E t c = (o, c') -> ssum E t c o c' evs ->
  (forall path v, tget path (c_vals c) = Some v -> stored E K N0 path v (c_log c)) ->
  c_binds c' = c_binds c /\ forall path v, tget path (c_vals c') = Some v -> stored E K N0 path v (c_log c').
Proof.
  intros Hw HK Hsf Hn Hst Hs Hv. pose proof (ss_log _ _ _ _ _ _ Hs) as Hl. apply step_apply in Hst as (c1 & Ha & K1 & K2). pose proof Ha as Ha'. apply (apply_kept E K) in Ha; [|exact HK|now apply (store_fed_app E [_])].
  assert (Hold : c_vals c' = c_vals c -> forall path v, tget path (c_vals c') = Some v -> stored E K N0 path v (c_log c')).
  { intros -> path v H. apply Hv in H. rewrite Hl. apply stored_app, stored_app. now apply (stored_app _ _ _ _ _ [_]). }
  pose proof (proj2 (wf_q_core t) Hw) as Hw'. rewrite <- (core_id t), <- (nodes_core t) in *. destruct (core t); try (destruct Ha as [A1 A2]; cbn in A1, A2; split; [congruence|apply Hold; congruence]).
  - easy.
  - destruct Ha as [A1 [A2|(v & A2 & A3 & A4 & A5)]]; cbn in A1, A2; (split; [congruence|]); [apply Hold; congruence|].
    intros path' v'. rewrite K2, A2. destruct (text_eq_dec path' path) as [->|Hne].
    + rewrite (aget_aset_same text_eqb text_eqb_eq). intros [= <-]. exists (ghost t o ++ evs), (t_id (TStore id pred ex path export terminal bs)), (c_log c), pred, ex, export, terminal.
      split; [now rewrite Hl, app_assoc|]. split; [apply Hn; now left|]. now split.
    + rewrite (aget_aset_other text_eqb text_eqb_eq) by exact Hne. intros H. apply Hv in H. rewrite Hl. apply stored_app, stored_app. now apply (stored_app _ _ _ _ _ [_]).
Qed.

Lemma V_run E (K : text -> ctx -> Prop) n N0 t ts p o c ts' p' : blocked (p_done p) t = false -> step E t (p_ctx p) = (o, c) ->
  run_next E t ts p o c = (ts', p') -> B E n N0 ts' p' -> K (t_id t) (emit (EvEval (t_id t)) (p_ctx p)) -> store_fed E (c_log (p_ctx p)) t -> V E K n N0 (t :: ts) p -> V E K n N0 ts' p'.
Proof.
  intros Hbl Hst Hx HB' HK Hsf [HB Hh Hno Hbd Hvl].
  assert (HW := t_w _ _ _ _ (b_t _ _ _ _ _ HB)). pose proof (w_ts _ _ HW) as Hw. inversion Hw as [|? ? Hwt _]; subst.
  assert (Hnd : incl (nodes t) N0) by (eapply (proj1 (nodess_incl _ _) (b_nodes _ _ _ _ _ HB)); now left).
  pose proof Hst as Hss. apply step_sum in Hss as (evs & Hss).
  destruct (step_queue _ _ _ _ _ _ _ _ Hwt HK Hsf Hnd Hst Hss Hvl) as [Hb Hv].
  pose proof (ss_log _ _ _ _ _ _ Hss) as Hl.
  assert (Hu : Forall unhandle (ghost t o ++ evs ++ [EvEval (t_id t)])).
  { apply Forall_app. split; [apply ghost_unhandle|]. apply Forall_app. split; [eapply ssum_unhandle; eauto|now repeat constructor]. }
  assert (Hl' : c_log c = (ghost t o ++ evs ++ [EvEval (t_id t)]) ++ c_log (p_ctx p)) by (rewrite Hl, <- !app_assoc; reflexivity).
  assert (Hbd' : forall a n v, bound a n v (c_binds c) <-> replied E N0 a n v (c_log c)).
  { intros a m v. rewrite Hb, Hl'. rewrite (proj1 (replied_quiet E N0 a m v _ _ Hu Hh)). apply Hbd. }
  assert (Hh' : ~ handled (c_log c)) by (rewrite Hl'; now apply (replied_quiet E N0 [] [] VNull)).
  unfold run_next in Hx. destruct o; injection Hx as <- <-.
  - constructor; auto.
  - destruct (def_insert_facts tok t0 (p_with_ctx p c)) as (D1 & _ & _ & _ & _ & D6). destruct (def_insert_kept tok t0 (p_with_ctx p c)) as [D7 D8]. cbn [p_with_ctx p_ctx p_def] in *.
    constructor; rewrite ?D1, ?D7, ?D8; auto.
    intros Ht. unfold dts. rewrite D6. apply (Forall_nset (fun t => is_noop t -> exists j, t_id t = tx "teardown_" ++ j)); [|now apply Hno].
    pose proof (ss_evs _ _ _ _ _ _ Hss) as (cl & _ & _ & _ & Hc). intros Hn. destruct t0; try easy.
    destruct (core t); easy.
  - constructor; auto.
  - constructor; auto.
  - pose proof (ss_final _ _ _ _ _ _ Hss) as Hf. cbn in Hf. destruct (terminal_sum E t0 c Hf) as (evs2 & T1 & T2 & _).
    destruct (terminal_kept E t0 c Hf) as [T3 T4]. apply final_unhandle in T2.
    constructor; cbn [p_ctx p_with_ctx p_term]; try exact HB'; change (c_log (drop_tasks ?l ?x)) with (c_log x); change (c_binds (drop_tasks ?l ?x)) with (c_binds x); change (c_vals (drop_tasks ?l ?x)) with (c_vals x); rewrite ?T1, ?T3, ?T4.
    + now apply (replied_quiet E N0 [] [] VNull).
    + discriminate.
    + intros a m v. rewrite (proj1 (replied_quiet E N0 a m v _ _ T2 Hh')). apply Hbd'.
    + intros path v H. now apply stored_app, Hv.
Qed.
Lemma V_handle E K n N0 tok st sz t p o c : calls_ok N0 -> settled p -> nget tok (p_def p) = Some t ->
  step E t (emit (EvHandle tok (t_id t)) (set_grpc st sz (emit (EvGrpcResp tok st sz) (p_ctx p)))) = (o, c) ->
  B E n N0 [] (handle_next E t (mkPipe c (p_queue p) (ndel tok (p_def p)) (p_done p) (p_td p) (p_term p)) o c) ->
  V E K n N0 [] p -> V E K n N0 [] (handle_next E t (mkPipe c (p_queue p) (ndel tok (p_def p)) (p_done p) (p_td p) (p_term p)) o c).
Proof.
  intros [HU HT] Hset Hn Hst HB' [HB Hh Hno Hbd Hvl].
  assert (HW := t_w _ _ _ _ (b_t _ _ _ _ _ HB)).
  assert (Hw : wf_d t) by (eapply Forall_nget; [apply (w_def _ _ HW)|exact Hn]).
  assert (Hin : In t (dts p)) by (eapply In_nget; eauto).
  assert (Hnd : incl (nodes t) N0) by (eapply (proj1 (nodess_incl _ _) (b_nodes _ _ _ _ _ HB)); unfold items; rewrite !in_app_iff; tauto).
  pose proof Hst as Hss. apply step_sum in Hss as (evs & Hss).
  set (c0 := emit (EvHandle tok (t_id t)) (set_grpc st sz (emit (EvGrpcResp tok st sz) (p_ctx p)))) in *.
  assert (Hlog0 : c_log c0 = EvHandle tok (t_id t) :: EvGrpcResp tok st sz :: c_log (p_ctx p)) by apply handle_grpc_log.
  assert (Hg0 : c_grpc c0 = Some (st, sz)) by (unfold c0, set_grpc; cbn; now rewrite (w_grpc _ _ HW)).
  destruct (handle_grpc_binds tok t st sz (p_ctx p)) as [Hb0 Hv0]. fold c0 in Hb0, Hv0.
  pose proof (ss_log _ _ _ _ _ _ Hss) as Hl. rewrite Hlog0 in Hl.
  set (now := EvEval (t_id t) :: EvHandle tok (t_id t) :: EvGrpcResp tok st sz :: c_log (p_ctx p)) in *.
  assert (Hu : Forall unhandle (ghost t o ++ evs)) by (apply Forall_app; split; [apply ghost_unhandle|eapply ssum_unhandle; eauto]).
  assert (Hhn : ~ handled now) by easy.
  assert (Hrn : forall a m v, replied E N0 a m v now <-> takes E N0 a m v now \/ replied E N0 a m v (c_log (p_ctx p))).
  { intros a m v. unfold now at 1. rewrite !replied_cons. split; [|tauto]. intros [H|[(k & s1 & s2 & ps & s & g & kids & H & _)|[(k & s1 & s2 & ps & s & g & kids & H & _)|H]]]; auto; discriminate. }
  assert (Hvals : c_vals c = c_vals (p_ctx p) /\ forall a m v, bound a m v (c_binds c) <-> replied E N0 a m v now).
  { apply step_apply in Hst as (c1 & Ha & K1 & K2). assert (Hsf : store_fed E (c_log (emit (EvEval (t_id t)) c0)) t) by (pose proof Hw as Hw1; apply wf_d_core in Hw1; unfold store_fed; destruct (core t); try exact Logic.I; destruct Hw1).
    pose proof (apply_kept E (fun _ _ => True) _ _ _ _ Logic.I Hsf Ha) as Hk.
    apply wf_d_core in Hw. rewrite <- nodes_core in Hnd. pose proof (core_id t) as Hid. destruct (core t) as [| id s var rs g|id g| | | | | | | |] eqn:Hc; try easy.
    - destruct Hk as (Hk1 & _ & Hk2). cbn [emit with_log c_vals c_grpc c_binds c_log] in Hk1, Hk2. rewrite Hlog0 in Hk2. fold now in Hk2. specialize (Hk2 _ _ Hg0).
      split; [congruence|]. intros a m v. rewrite K1, Hrn.
      assert (Hnc : In (NCall (t_id t) s var g (map t_id rs)) N0) by (rewrite <- Hid; apply Hnd; now left).
      assert (Hov : ~ over (c_log (p_ctx p))).
      { intros Ho. apply (t_over _ _ _ _ (b_t _ _ _ _ _ HB)) in Ho. apply Hset in Ho. rewrite Forall_forall in Ho. apply Ho in Hin. destruct t; easy. }
      assert (Ht : takes E N0 a m v now <-> a = t_id t /\ m = var /\ reply_value E s (length rs) st sz now = Some v).
      { split.
        - intros (k & s1 & s2 & past & s' & g' & kids & He & _ & H2 & H3). unfold now in He. injection He as <- <- _ _ <- <- <-.
          destruct (HU _ _ _ _ _ _ _ _ _ H2 Hnc) as [[-> _]|(-> & -> & ->)]; [exfalso; revert H3; unfold reply_value; cbn [length]; destruct (_ =? 0)%N; discriminate|]. rewrite map_length in H3. auto.
        - intros (-> & -> & Hr). exists tok, st, sz, (c_log (p_ctx p)), s, g, (map t_id rs). rewrite map_length. auto. }
      rewrite Ht. destruct (reply_value E s (length rs) st sz now) as [x|].
      + rewrite Hk2, bound_insert, Hb0, Hbd, <- Hid. cbn [t_id]. split; [intros [H|(-> & -> & ->)]|intros [(-> & -> & [= ->])|H]]; auto.
      + rewrite Hk2, Hb0, Hbd. split; [auto|]. intros [(_ & _ & [=])|H]. exact H.
    - destruct Hk as [Hk1 Hk2]. change (c_binds c1 = c_binds c0) in Hk1. change (c_vals c1 = c_vals c0) in Hk2. split; [congruence|]. intros a m v. rewrite K1, Hk1, Hb0, Hbd, Hrn. split; [auto|]. intros [H|H]; [|exact H]. exfalso.
      destruct H as (k & s1 & s2 & past & s & g' & kids & He & Ho & H2 & _). unfold now in He. injection He as <- <- _ _ <- <- <-.
      destruct (p_term p) eqn:Hpt; [apply Ho, (t_over _ _ _ _ (b_t _ _ _ _ _ HB)); exact Hpt|].
      specialize (Hno eq_refl). rewrite Forall_forall in Hno. destruct (Hno t Hin) as (j & Hj); [exact Hw|]. exact (HT _ _ _ _ _ H2 j Hj). }
  destruct Hvals as [Hv Hbd0].
  assert (Hl' : c_log c = (ghost t o ++ evs) ++ now) by (rewrite Hl, <- app_assoc; reflexivity).
  assert (Hbd' : forall a n v, bound a n v (c_binds c) <-> replied E N0 a n v (c_log c)).
  { intros a m v. rewrite Hbd0, Hl'. symmetry. apply (replied_quiet E N0 a m v _ _ Hu Hhn). }
  assert (Hh' : ~ handled (c_log c)) by (rewrite Hl'; now apply (replied_quiet E N0 [] [] VNull)).
  assert (Hv' : forall path v, tget path (c_vals c) = Some v -> stored E K N0 path v (c_log c)).
  { intros path v. rewrite Hv. intros H. apply Hvl in H. rewrite Hl'. apply stored_app. now apply (stored_app _ _ _ _ _ [_; _; _]). }
  assert (Hno' : p_term p = false -> Forall (fun t => is_noop t -> exists j, t_id t = tx "teardown_" ++ j) (map snd (ndel tok (p_def p)))).
  { intros H. specialize (Hno H). rewrite Forall_forall in *. intros x Hi. apply In_ndel in Hi. now apply Hno. }
  unfold handle_next in *. destruct o; cbn [p_with_ctx p_with_done p_ctx p_def p_queue p_done p_td p_term] in *.
  - constructor; auto.
  - exfalso. destruct (ss_evs _ _ _ _ _ _ Hss) as (cl & _ & _ & _ & Hc). apply wf_d_core in Hw. destruct (core t); easy.
  - constructor; cbn [p_ctx emit with_log c_log c_binds c_vals]; auto.
    + intros a m v. rewrite Hbd'. change (EvDone (t_id t) :: c_log c) with ([EvDone (t_id t)] ++ c_log c). symmetry. apply replied_quiet; [now repeat constructor|exact Hh'].
    + intros path v H. now apply (stored_app _ _ _ _ _ [_]), Hv'.
  - constructor; auto.
  - pose proof (ss_final _ _ _ _ _ _ Hss) as Hf. cbn in Hf. destruct (terminal_sum E t0 c Hf) as (evs2 & T1 & T2 & _).
    destruct (terminal_kept E t0 c Hf) as [T3 T4]. apply final_unhandle in T2.
    constructor; cbn [p_ctx p_with_ctx p_term]; try exact HB'; change (c_log (drop_tasks ?l ?x)) with (c_log x); change (c_binds (drop_tasks ?l ?x)) with (c_binds x); change (c_vals (drop_tasks ?l ?x)) with (c_vals x); rewrite ?T1, ?T3, ?T4.
    + now apply (replied_quiet E N0 [] [] VNull).
    + discriminate.
    + intros a m v. rewrite (proj1 (replied_quiet E N0 a m v _ _ T2 Hh')). apply Hbd'.
    + intros path v H. now apply stored_app, Hv'.
Qed.
Lemma td_kept E a p : kept (p_ctx p) (p_ctx (td_step E p a)).
Proof.
  unfold td_step. destruct (td_exec E a (emit EvTeardown (p_ctx p))) as [r c] eqn:Htd.
  assert (Hc : kept (p_ctx p) c).
  { unfold td_exec in Htd. destruct (o_spans E _); [|injection Htd as <- <-; now split]. apply dispatch_kept in Htd. exact Htd. }
  destruct r as [tok|]; [|exact Hc]. eapply kept_trans; [exact Hc|]. apply (def_insert_kept tok _ (p_with_ctx p c)).
Qed.
Lemma V_quiet E K N0 evs c c' : Forall unhandle evs -> c_log c' = evs ++ c_log c -> kept c c' ->
  ~ handled (c_log c) /\ (forall a n v, bound a n v (c_binds c) <-> replied E N0 a n v (c_log c)) /\ (forall path v, tget path (c_vals c) = Some v -> stored E K N0 path v (c_log c)) ->
  ~ handled (c_log c') /\ (forall a n v, bound a n v (c_binds c') <-> replied E N0 a n v (c_log c')) /\ (forall path v, tget path (c_vals c') = Some v -> stored E K N0 path v (c_log c')).
Proof.
  intros Hu Hl [Hb Hv] (H1 & H2 & H3). rewrite Hl, Hb, Hv. split; [now apply (replied_quiet E N0 [] [] VNull)|]. split.
  - intros a n v. rewrite (proj1 (replied_quiet E N0 a n v _ _ Hu H1)). apply H2.
  - intros path v H. now apply stored_app, H3.
Qed.
Lemma V_finv E fa n N0 : calls_ok N0 -> finvb E (fun ts p => goes E fa ts p /\ V E (at_work E fa) n N0 ts p) (fun _ => True).
Proof.
  intros HO. pose proof (B_finv E n N0) as HF.
  assert (VN : forall p e, neutral e -> V E (at_work E fa) n N0 [] p -> V E (at_work E fa) n N0 [] (p_emit e p)).
  { intros p e He HI. pose proof (fi_neutral _ _ _ HF p e He (v_b _ _ _ _ _ _ HI)) as HB'. destruct HI as [HB Hh Hno Hbd Hvl].
    destruct (V_quiet E (at_work E fa) N0 [e] (p_ctx p) (p_ctx (p_emit e p))) as (V1 & V2 & V3); [constructor; [destruct e; easy|constructor]|reflexivity|now split|auto|]. constructor; auto. }
  constructor; try (intros; exact Logic.I).
  - intros ts p ts' p' Hs [HG HI]. split; [eapply re_step; eauto|]. pose proof (fi_step _ _ _ HF _ _ _ _ Hs (v_b _ _ _ _ _ _ HI)) as HB'.
    destruct Hs as [p Hset|t ts p Hb|t ts p o c ts' p' Hb Hst Hn|tok st sz p Hset Hn|tok st sz t p o c Hset Hn Hst|p Hq Ht|a rest p Hq Hn Ht].
    + destruct HI as [HB Hh Hno Hbd Hvl]. constructor; auto.
    + destruct HI as [HB Hh Hno Hbd Hvl]. constructor; auto.
    + eapply V_run; eauto; [now exists t, ts, p|]. destruct (fed_goes _ _ _ _ HG) as [_ Hf]. inversion Hf; subst. now apply fed_store_fed.
    + destruct HI as [HB Hh Hno Hbd Hvl]. destruct (V_quiet E (at_work E fa) N0 [EvGrpcResp tok st sz] (p_ctx p) (p_ctx (p_emit (EvGrpcResp tok st sz) p))) as (V1 & V2 & V3); [now repeat constructor|reflexivity|now split|auto|]. constructor; auto.
    + eapply V_handle; eauto.
    + destruct HI as [HB Hh Hno Hbd Hvl]. constructor; auto. intros Hf. destruct Ht as [Ht|Ht]; [cbn in Hf; congruence|]. unfold dts. cbn [replace_deferred p_def]. rewrite Ht. constructor.
    + destruct HI as [HB Hh Hno Hbd Hvl].
      destruct (td_sum E a (p_with_td p rest)) as (evs & tok & T1 & T2 & T3 & T4 & T5 & T6 & _). pose proof (td_kept E a (p_with_td p rest)) as Hk. cbn [p_with_td p_ctx p_queue p_def p_term] in *.
      destruct (V_quiet E (at_work E fa) N0 (evs ++ [EvTeardown]) (p_ctx p) (p_ctx (td_step E (p_with_td p rest) a))) as (V1 & V2 & V3); auto.
      { apply Forall_app. split; [|now repeat constructor]. destruct T2 as [[-> _]|(cl & -> & _)]; now repeat constructor. }
      { now rewrite <- app_assoc. }
      constructor; auto. rewrite T6. intros Hf. unfold dts. rewrite T3. specialize (Hno Hf). destruct tok; [|exact Hno].
      apply (Forall_nset (fun t => is_noop t -> exists j, t_id t = tx "teardown_" ++ j)); [|exact Hno]. intros _. now eexists.
  - intros p e He [HG HI]. split; [now apply re_neutral|]. apply VN; [now apply bland_neutral|exact HI].
  - intros src m e p [HG HI]. split; [now apply re_body|]. unfold p_body. destruct src.
    + assert (HI1 : V E (at_work E fa) n N0 [] (p_emit (EvReqBody m e) p)) by (apply VN; [exact Logic.I|exact HI]).
      pose proof (fi_reqb _ _ _ HF _ (set_size m e (c_reqb (p_ctx p))) (v_b _ _ _ _ _ _ HI1)) as HB'. destruct HI1 as [HB Hh Hno Hbd Hvl]. constructor; auto.
    + assert (HI1 : V E (at_work E fa) n N0 [] (p_emit (EvRespBody m e) p)) by (apply VN; [exact Logic.I|exact HI]).
      pose proof (fi_respb _ _ _ HF _ (set_size m e (c_respb (p_ctx p))) (v_b _ _ _ _ _ _ HI1)) as HB'. destruct HI1 as [HB Hh Hno Hbd Hvl]. constructor; auto.
Qed.
Lemma V_start E fa p : build E fa (ctx0 [EvReqHeaders]) = BOk p -> V E (at_work E fa) (length (p_td p)) (nodess (p_queue p)) [] (p_emit (EvMetric MHits) p).
Proof.
  intros Hb. pose proof (build_spec E fa (ctx0 [EvReqHeaders])) as Hsp. rewrite Hb in Hsp.
  destruct Hsp as (b & c1 & tds & _ & _ & Hp & (Hl & _ & _ & Hv & Hbi & _) & _). cbn in Hl, Hv, Hbi.
  constructor; cbn [p_emit p_with_ctx p_ctx emit with_log c_log c_binds c_vals p_term]; rewrite ?Hl, ?Hv, ?Hbi.
  - now apply B_start with (fa := fa).
  - easy.
  - intros _. unfold dts. cbn [p_emit p_with_ctx p_def]. rewrite Hp. constructor.
  - intros a n v. split; [intros (bs & [] & _)|]. rewrite !replied_cons. intros [(k & s1 & s2 & past & s & g & kids & H & _)|[(k & s1 & s2 & past & s & g & kids & H & _)|(after & now & H & Ht)]]; try discriminate.
    destruct after, now; try discriminate. now destruct Ht as (k & s1 & s2 & past & s & g & kids & H1 & _).
  - discriminate.
Qed.
Lemma V_reach E fa p : build E fa (ctx0 [EvReqHeaders]) = BOk p -> calls_ok (nodess (p_queue p)) ->
  forall ts q, goes E fa ts q -> V E (at_work E fa) (length (p_td p)) (nodess (p_queue p)) ts q.
Proof.
  intros Hb Ho ts q Hg. refine (proj2 (reach_inv_b _ _ _ _ (V_finv E fa _ _ Ho) _ _ _ Hg)). intros p' Hb'. rewrite Hb in Hb'. injection Hb' as <-. split; [now apply re_start|]. now apply V_start.
Qed.

(** * Bindings are kept in the order of the ids *)
Lemma leb_total a b : text_leb a b = false -> text_leb b a = true.
Proof.
  revert b. induction a as [|x a IH]; intros [|y b]; try easy. cbn [text_leb]. rewrite (N.compare_antisym (N_of_ascii x) (N_of_ascii y)).
  destruct (N.compare (N_of_ascii x) (N_of_ascii y)); cbn; try easy. apply IH.
Qed.
Lemma ascii_N x y : N.compare (N_of_ascii x) (N_of_ascii y) = Eq -> x = y.
Proof. intros H. apply N.compare_eq in H. rewrite <- (ascii_N_embedding x), <- (ascii_N_embedding y). now rewrite H. Qed.
Lemma leb_antisym a b : text_leb a b = true -> text_leb b a = true -> a = b.
Proof.
  revert b. induction a as [|x a IH]; intros [|y b]; try easy. cbn [text_leb]. rewrite (N.compare_antisym (N_of_ascii x) (N_of_ascii y)).
  destruct (N.compare (N_of_ascii x) (N_of_ascii y)) eqn:Hc; cbn; try easy. apply ascii_N in Hc as ->. intros H1 H2. f_equal. now apply IH.
Qed.
Lemma leb_trans a b c : text_leb a b = true -> text_leb b c = true -> text_leb a c = true.
Proof.
  revert b c. induction a as [|x a IH]; intros [|y b] [|z c]; try easy. cbn [text_leb].
  destruct (N.compare_spec (N_of_ascii x) (N_of_ascii y)) as [Hxy|Hxy|Hxy]; try easy; destruct (N.compare_spec (N_of_ascii y) (N_of_ascii z)) as [Hyz|Hyz|Hyz]; try easy.
  - rewrite Hxy, Hyz, N.compare_refl. apply IH.
  - intros _ _. now rewrite Hxy, (proj2 (N.compare_lt_iff _ _) Hyz).
  - intros _ _. now rewrite <- Hyz, (proj2 (N.compare_lt_iff _ _) Hxy).
  - intros _ _. now rewrite (proj2 (N.compare_lt_iff _ _) (N.lt_trans _ _ _ Hxy Hyz)).
Qed.
Lemma leb_prefix a r : text_leb a (a ++ r) = true.
Proof. induction a as [|x a IH]; [reflexivity|]. cbn [text_leb app]. now rewrite N.compare_refl. Qed.
Lemma bind_insert_keys id m x b : forall k, In k (map fst (bind_insert id m x b)) -> k = id \/ In k (map fst b).
Proof.
  induction b as [|[s l] b IH]; intros k; cbn [bind_insert]; [intros [<-|[]]; auto|].
  destruct (text_eqb id s); [intros [<-|H]; cbn; auto|]. destruct (text_leb id s); [intros [<-|H]; auto|]. intros [<-|H]; cbn; auto. apply IH in H as [H|H]; auto.
Qed.
Definition ordered (b : list (text * list (text * value))) : Prop := StronglySorted keys_lt b.
Lemma bind_insert_ordered id m x b : ordered b -> ordered (bind_insert id m x b).
Proof.
  unfold ordered. induction b as [|[s l] b IH]; intros Ho; cbn [bind_insert]; [repeat constructor|]. inversion Ho as [|? ? H1 H2]; subst. rewrite Forall_forall in H2.
  destruct (text_eqb id s) eqn:He; [constructor; [assumption|now apply Forall_forall]|].
  destruct (text_leb id s) eqn:Hle.
  - constructor; [exact Ho|]. assert (Hn : text_leb s id = false).
    { destruct (text_leb s id) eqn:Hs; [|reflexivity]. rewrite (leb_antisym _ _ Hle Hs), text_eqb_refl in He. discriminate. }
    constructor; [exact Hn|]. apply Forall_forall. intros y Hy. specialize (H2 y Hy). unfold keys_lt in *. cbn [fst] in *.
    destruct (text_leb (fst y) id) eqn:Hy2; [|reflexivity]. now rewrite (leb_trans _ _ _ Hy2 Hle) in H2.
  - constructor; [now apply IH|]. apply Forall_forall. intros [k l'] Hy. unfold keys_lt. cbn [fst].
    assert (Hk : In k (map fst (bind_insert id m x b))) by (apply in_map_iff; now exists (k, l')).
    apply bind_insert_keys in Hk as [->|Hk]; [exact Hle|]. apply in_map_iff in Hk as ((k2 & l2) & <- & Hk). now apply H2 in Hk.
Qed.
Lemma store_value_binds E self id p x path ex tm c o c' : store_value E self id p x path ex tm c = (o, c') -> c_binds c' = c_binds c.
Proof.
  unfold store_value. destruct (test_in E p _ c) as [[r vs] c1] eqn:H1. apply test_in_ext, ext_kept in H1.
  destruct r as [|[]|]; try (intros [= <- <-]; apply H1).
  destruct (eval_in E x vs c1) as [[r2 vs2] c2] eqn:H2. apply eval_in_ext, ext_kept in H2. pose proof (kept_trans _ _ _ H1 H2) as H3.
  destruct r2 as [|v|]; try (intros [= <- <-]; apply H3).
  set (y := if ex then _ else _). assert (Hy : c_binds (snd y) = c_binds c).
  { unfold y. destruct ex; [|apply H3]. destruct (value_bytes v); [|apply H3]. unfold set_attribute. destruct (h_setprop E _ _ _); apply H3. }
  destruct y as [ok c3]. cbn [snd] in Hy. destruct ok; intros [= <- <-]; exact Hy.
Qed.
Lemma store_binds E id p x path ex tm bs c o c' : apply E (TStore id p x path ex tm bs) c = (o, c') -> c_binds c' = c_binds c.
Proof.
  cbn [apply]. unfold apply_store.
  assert (KK : forall src q c1 o c', c_binds c1 = c_binds c ->
    match feed_parser E src q c1 with
    | RPending => (ORequeued [TStore id p x path ex tm (BSActive src q)], c1)
    | RErr => (OFailed, c1)
    | RAvail (p', c') => store_value E (TStore id p x path ex tm (BSActive src p')) id p x path ex tm c'
    end = (o, c') -> c_binds c' = c_binds c).
  { intros src q c1 o0 c0 Hk. destruct (feed_parser E src q c1) as [|[q' c2]|] eqn:Hf; try (intros [= <- <-]; exact Hk).
    apply feed_parser_frame in Hf as (b & ->). intros H. apply store_value_binds in H. rewrite H. now destruct src. }
  destruct bs as [|src fields|src q]; [apply store_value_binds| |now apply KK].
  destruct (create_parser E src fields c) as [r c1] eqn:Hcp.
  assert (Hk : c_binds c1 = c_binds c).
  { revert Hcp. unfold create_parser. destruct src; [intros [= _ <-]; reflexivity|]. destruct (read_headers E p_resp_headers c) as [r1 c2] eqn:Hr.
    apply read_headers_ext, ext_kept in Hr. cbv zeta. destruct r1; intros [= _ <-]; apply Hr. }
  destruct r as [|q|]; try (intros [= <- <-]; exact Hk). now apply KK.
Qed.
Lemma core_store_binds E t : forall c o c', match core t with TStore _ _ _ _ _ _ _ => True | _ => False end -> apply E t c = (o, c') -> c_binds c' = c_binds c.
Proof.
  induction t as [id s var msg rs pred deps g|id s var rs g|id g|t IH b|t IH|id p tm|id p hx m tm|id p d tm|id p x path ex tm bs|st fs|]; intros c o c' Hc; cbn [core] in Hc; try destruct Hc; cbn [apply].
  - destruct (apply E t c) as [o1 c1] eqn:Ha. apply IH in Ha; [|exact Hc]. destruct o1; intros [= <- <-]; exact Ha.
  - destruct (apply E t c) as [o1 c1] eqn:Ha. apply IH in Ha; [|exact Hc]. destruct o1; intros [= <- <-]; exact Ha.
  - apply (store_binds E id p x path ex tm bs).
Qed.
Lemma apply_binds E t c o c' : apply E t c = (o, c') -> c_binds c' = c_binds c \/ exists id m x, c_binds c' = bind_insert id m x (c_binds c).
Proof.
  intros Ha. pose proof (core_store_binds E t c o c') as Hst. pose proof (apply_kept E (fun _ _ => True) t c o c' Logic.I) as H. unfold store_fed in H.
  destruct (core t); try (left; now apply (H Logic.I Ha)); [|left; exact (Hst Logic.I Ha)].
  destruct (H Logic.I Ha) as (_ & H1 & H2). destruct (c_grpc c) as [[st sz]|]; [|left; auto]. specialize (H2 _ _ eq_refl). destruct (reply_value _ _ _ _ _ _); [right; eauto|now left].
Qed.
Lemma step_binds E t c o c' : step E t c = (o, c') -> ordered (c_binds c) -> ordered (c_binds c').
Proof. intros H Ho. apply step_apply in H as (c1 & Ha & K1 & _). rewrite K1. apply apply_binds in Ha as [->|(id & m & x & ->)]; [exact Ho|]. now apply bind_insert_ordered. Qed.
Lemma terminal_binds E f c : ordered (c_binds c) -> ordered (c_binds (run_terminal E f c)).
Proof. intros Ho. unfold run_terminal. destruct (apply E f c) as [o c1] eqn:Ha. apply apply_binds in Ha as [Ha|(id & m & x & Ha)]; cbn; rewrite Ha; [exact Ho|]. now apply bind_insert_ordered. Qed.
Lemma ordered_finv E : finv E (fun _ p => ordered (c_binds (p_ctx p))) (fun _ => True).
Proof.
  constructor; try (intros; exact Logic.I); try (intros; assumption).
  intros ts p ts' p' Hs Ho.
  destruct Hs as [p Hset|t ts p Hb|t ts p o c ts' p' Hb Hst Hn|tok st sz p Hset Hn|tok st sz t p o c Hset Hn Hst|p Hq Ht|a rest p Hq Hn Ht]; try exact Ho.
  - apply step_binds in Hst; [|exact Ho]. unfold run_next in Hn. destruct o; injection Hn as <- <-; try exact Hst.
    + now rewrite (proj1 (def_insert_kept tok t0 (p_with_ctx p c))).
    + cbn [p_ctx]. change (c_binds (drop_tasks ?l ?x)) with (c_binds x). now apply terminal_binds.
  - apply step_binds in Hst; [|rewrite (proj1 (handle_grpc_binds tok t st sz (p_ctx p))); exact Ho]. unfold handle_next. destruct o; try exact Hst.
    + now rewrite (proj1 (def_insert_kept tok0 t0 _)).
    + cbn [p_ctx]. change (c_binds (drop_tasks ?l ?x)) with (c_binds x). now apply terminal_binds.
  - now rewrite (proj1 (td_kept E a (p_with_td p rest))).
Qed.
Lemma reach_ordered E fa ts p : goes E fa ts p -> ordered (c_binds (p_ctx p)).
Proof.
  apply (reach_inv _ _ _ _ (ordered_finv E)). intros q Hb. pose proof (build_spec E fa (ctx0 [EvReqHeaders])) as Hsp. rewrite Hb in Hsp.
  destruct Hsp as (b & c1 & tds & _ & _ & _ & (_ & _ & _ & _ & Hbi & _) & _). cbn [p_emit p_with_ctx p_ctx emit with_log c_binds]. rewrite Hbi. constructor.
Qed.
(** the value a name has in a scope comes from the last action that has one *)
Lemma tget_rev_app {V} k (l1 l2 : list (text * V)) : tget k (rev (l1 ++ l2)) = match tget k (rev l2) with Some v => Some v | None => tget k (rev l1) end.
Proof.
  rewrite rev_app_distr. induction (rev l2) as [|[k' v'] l IH]; [reflexivity|]. cbn [app aget]. destruct (text_eqb k k'); [reflexivity|]. exact IH.
Qed.
Lemma tget_rev_In {V} k (v : V) l : tget k (rev l) = Some v -> In (k, v) l.
Proof. intros H. apply (aget_In text_eqb text_eqb_eq) in H. now apply in_rev. Qed.
Lemma tget_rev_None {V} k (v : V) l : tget k (rev l) = None -> ~ In (k, v) l.
Proof. intros H Hi. apply in_rev in Hi. apply (aget_None text_eqb text_eqb_eq) in H. apply H. apply in_map_iff. now exists (k, v). Qed.
Lemma scope_last k v id c : ordered (c_binds c) -> tget k (scope_vars id c) = Some v ->
  exists a, is_ancestor a id = true /\ bound a k v (c_binds c) /\
    forall a' v', is_ancestor a' id = true -> bound a' k v' (c_binds c) -> text_leb a' a = true.
Proof.
  unfold scope_vars. generalize (c_binds c). intros b. induction b as [|[s l] b IH]; [discriminate|]. intros Ho. inversion Ho as [|? ? H1 H2]; subst.
  cbn [flat_map fst snd]. rewrite tget_rev_app. destruct (tget k (rev (flat_map _ b))) as [w|] eqn:Hw.
  - intros [= <-]. destruct (IH H1 eq_refl) as (a & A1 & (bs & A2 & A3) & A4). exists a. split; [exact A1|]. split; [exists bs; split; [now right|exact A3]|].
    intros a' v' Ha' (bs' & [[= <- <-]|Hi] & Hv'); [|apply (A4 a' v' Ha'); now exists bs']. rewrite Forall_forall in H2. apply leb_total. exact (H2 _ A2).
  - destruct (is_ancestor s id) eqn:Hs; [|discriminate]. intros Hv. apply tget_rev_In in Hv. exists s. split; [exact Hs|]. split; [exists l; split; [now left|exact Hv]|].
    intros a' v' Ha' (bs' & [[= <- <-]|Hi] & Hv').
    + rewrite <- (app_nil_r s) at 2. apply leb_prefix.
    + exfalso. eapply tget_rev_None; [exact Hw|]. apply in_flat_map. exists (a', bs'). cbn. rewrite Ha'. split; [exact Hi|exact Hv'].
Qed.

(** * The actions enclosing an action *)
Lemma is_ancestor_below a b : is_ancestor a b = true <-> below a b.
Proof.
  unfold is_ancestor, below. rewrite orb_true_iff, starts_with_spec. split.
  - intros [H|(r & ->)]; [left; now apply text_eqb_eq|right; exists r; now rewrite <- app_assoc].
  - intros [->|(r & ->)]; [left; apply text_eqb_refl|right; exists r; now rewrite <- app_assoc].
Qed.
Lemma within_trans id t a x b y : within id t a x -> within a x b y -> within id t b y.
Proof. induction 1 as [|id p tm g sq var service msg rs i r a x Hn Hw IH]; [auto|]. intros H. eapply wi_reply; eauto. Qed.
Lemma below_both a a' x : below a x -> below a' x -> length a <= length a' -> below a a'.
Proof.
  intros [->|(r & ->)] Hb Hl.
  - destruct Hb as [->|(r & ->)]; [apply below_refl|]. rewrite app_length in Hl. cbn in Hl. lia.
  - destruct Hb as [<-|(r' & H)]; [right; now exists r|]. revert a' r' H Hl. induction a as [|c a IH]; intros [|c' a'] r' H Hl; cbn in *; try lia.
    + left. reflexivity.
    + injection H as H1 H2. subst c'. right. now exists a'.
    + injection H as <- H. destruct (IH a' r' H) as [->|(r2 & ->)]; [lia|now left|right; now exists r2].
Qed.
Lemma below_antisym a b : below a b -> below b a -> a = b.
Proof. intros [->|(r & ->)] H; [reflexivity|]. apply below_length in H. rewrite app_length in H. cbn in H. lia. Qed.
Lemma below_within id t b y : within id t b y -> forall a x, within id t a x -> below a b -> within a x b y.
Proof.
  induction 1 as [id t|id p tm g sq var service msg rs i r b y Hn Hw IH]; intros a x Ha Hb.
  - assert (a = id) as -> by (apply below_antisym; [exact Hb|now apply within_below in Ha]). rewrite (within_unique _ _ _ _ Ha t (wi_self _ _)). constructor.
  - inversion Ha as [|? ? ? ? ? ? ? ? ? j r' ? ? Hn' Hw']; subst; [eapply wi_reply; eauto|].
    assert (i = j) as <-.
    { apply (below_numbers (id ++ [dot]) i j b); rewrite <- app_assoc; [exact (within_below _ _ _ _ Hw)|]. eapply below_trans; [|exact Hb]. exact (within_below _ _ _ _ Hw'). }
    rewrite Hn in Hn'. injection Hn' as <-. apply IH; assumption.
Qed.
Lemma configured_below svs rd s a x b y : configured svs rd s a x -> configured svs rd s b y -> (below a b <-> within a x b y).
Proof.
  intros (i & c & t & H1 & H2 & H3) (j & c' & t' & K1 & K2 & K3). split; [|apply within_below]. intros Hb.
  assert (i = j).
  { apply (below_numbers [] i j b); [|exact (within_below _ _ _ _ K3)]. eapply below_trans; [exact (within_below _ _ _ _ H3)|exact Hb]. }
  subst j. rewrite H1 in K1. injection K1 as <-. rewrite H2 in K2. injection K2 as <-. eapply below_within; eauto.
Qed.

(** * Every configured action is there *)
Definition main_node (nd : node) : Prop := match nd with NDyn _ _ _ _ => False | _ => True end.
Lemma to_cores_nth E rs : forall c ts c', to_cores E rs c = Some (ts, c') -> forall a, In a rs -> exists t c1 c2, In t ts /\ to_core E a c1 = Some (t, c2).
Proof.
  induction rs as [|r rs IH]; intros c ts c'; cbn [to_cores]; [intros _ a []|].
  destruct (to_core E r c) as [[t1 c2]|] eqn:H1; [|discriminate].
  destruct (to_cores E rs c2) as [[ts2 c3]|] eqn:H2; [|discriminate]. intros [= <- <-] a [<-|Ha].
  - exists t1, c, c2. split; [now left|exact H1].
  - destruct (IH _ _ _ H2 a Ha) as (t & c4 & c5 & K1 & K2). exists t, c4, c5. split; [now right|exact K2].
Qed.
Lemma replies_all E svs id rs : forall i l, compile_replies E svs id i rs = Some l ->
  forall j r, nth_error rs j = Some r -> exists a, In a l /\ compile_typed E svs r (id ++ dot :: nat_text (i + j)) = Some a.
Proof.
  induction rs as [|r rs IH]; intros i l; cbn [compile_replies]; [intros _ [|j] r; discriminate|].
  destruct (ta_seq r); [discriminate|].
  destruct (compile_typed E svs r (id ++ dot :: nat_text i)) as [a|] eqn:Ha; [|discriminate].
  destruct (compile_replies E svs id (S i) rs) as [l'|] eqn:Hl; [|discriminate]. intros [= <-] [|j] r' Hj.
  - injection Hj as <-. exists a. split; [now left|]. now rewrite Nat.add_0_r.
  - destruct (IH _ _ Hl j r' Hj) as (a' & H1 & H2). exists a'. split; [now right|]. now rewrite Nat.add_succ_r.
Qed.
Lemma compile_all_nodes E svs t : forall id a d c tk c', compile_typed E svs t id = Some a -> to_core E (set_deps d a) c = Some (tk, c') ->
  forall b x, within id t b x -> exists nd, In nd (nodes tk) /\ main_node nd /\ describes E svs b x nd.
Proof.
  induction t as [p t g s var sv m rs IH|p t g s o Ho] using taction_ind'; intros id a d c tk c'.
  - rewrite compile_typed_grpc. destruct (parse_expr E p) as [p'|] eqn:Hp; [|discriminate].
    destruct (tget sv svs) as [[k s'|]|] eqn:Hs; try discriminate.
    destruct (compile_replies E svs id 0 rs) as [l|] eqn:Hl; [|discriminate].
    destruct (parse_expr E m) as [m'|] eqn:Hm; [|discriminate]. intros [= <-].
    cbn [set_deps]. rewrite to_core_grpc. destruct (to_cores E l c) as [[ts c1]|] eqn:Ht; [|discriminate]. intros [= <- <-].
    pose proof (replies_nth _ _ _ _ _ _ Hl) as [L1 L2]. pose proof (to_cores_In _ _ _ _ _ Ht) as [T1 T2].
    intros b x Hw. inversion Hw as [|? ? ? ? ? ? ? ? ? j r ? ? Hn Hw']; subst.
    + eexists. cbn [nodes]. rewrite nodes_go. split; [now left|]. split; [exact Logic.I|]. cbn. exists p'. split; [exact Hp|]. repeat split; [now exists k|]. congruence.
    + destruct (replies_all _ _ _ _ _ _ Hl _ _ Hn) as (a & Ha & Hc). destruct (to_cores_nth _ _ _ _ _ Ht _ Ha) as (tk & c2 & c3 & Htk & Htc).
      assert (Hd : set_deps [] a = a).
      { pose proof (compile_typed_ids _ _ _ _ _ Hc) as (_ & H & _). destruct a as [i0 p0 t0 o0 d0 g0]. cbn in *. now rewrite H. }
      rewrite <- Hd in Htc. rewrite Forall_forall in IH. destruct (IH r (nth_error_In _ _ Hn) _ _ _ _ _ _ Hc Htc _ _ Hw') as (nd & N1 & N2).
      exists nd. split; [|exact N2]. cbn [nodes]. rewrite nodes_go. right. right. apply in_flat_map. now exists tk.
  - destruct o; cbn [compile_typed]; [edestruct Ho; reflexivity| | | |]; (destruct (parse_expr E p) as [p'|] eqn:Hp; [|discriminate]);
      try (match goal with |- context [parse_expr E ?e] => destruct (parse_expr E e) as [e'|] eqn:He; [|discriminate] end);
      intros [= <-]; cbn [set_deps to_core]; intros [= <- <-] b x Hw; inversion Hw; subst; eexists; (split; [left; reflexivity|]); (split; [exact Logic.I|]); cbn; exists p'; repeat split; assumption.
Qed.
Lemma actions_tasks_all E rd tr l : forall c ts tds c', actions_tasks E rd tr l c = Some (ts, tds, c') ->
  forall a, In a l -> exists c1 tk c2, to_core E a c1 = Some (tk, c2) /\ incl (nodes tk) (nodess ts).
Proof.
  induction l as [|a l IH]; intros c ts tds c'; cbn [actions_tasks]; [intros _ a []|].
  destruct (action_tasks E rd tr a c) as [[[t1 td1] c1]|] eqn:H1; [|discriminate]. apply action_tasks_nodes in H1 as (tk & c3 & A1 & A2).
  destruct (actions_tasks E rd tr l c1) as [[[t2 td2] c2]|] eqn:H2; [|discriminate]. specialize (IH _ _ _ _ H2).
  intros [= <- <- <-] b Hi. unfold nodess in *. rewrite flat_map_app. destruct Hi as [<-|Hi].
  - exists c, tk, c3. split; [exact A1|]. rewrite A2. apply incl_appl, incl_refl.
  - destruct (IH b Hi) as (c4 & tk' & c5 & B1 & B2). exists c4, tk', c5. split; [exact B1|]. now apply incl_appr.
Qed.
Lemma built_all E cfg fa s svs bp c p :
  cfg_svs cfg = Some svs -> compile_set E svs (cfg_rsrc E cfg) s = Some bp ->
  select E fa (ctx0 [EvReqHeaders]) = (Some (Some (mkBp (bp_name bp) (bp_preds bp) (bp_actions bp ++ cfg_dev svs cfg))), c) ->
  build E fa (ctx0 [EvReqHeaders]) = BOk p ->
  forall a x, configured svs (cfg_rsrc E cfg) s a x -> exists nd, In nd (nodess (p_queue p)) /\ main_node nd /\ describes E svs a x nd.
Proof.
  intros Hsv Hc Hsel Hb b x (i & cf & t & Hi & Hm & Hw). pose proof (build_spec E fa (ctx0 [EvReqHeaders])) as Hsp. rewrite Hb in Hsp.
  destruct Hsp as (b0 & c1 & tds & Hs & Ht & _). rewrite Hsel in Hs. injection Hs as <- <-. unfold to_tasks in Ht.
  apply compile_set_compiled in Hc.
  assert (Hlt : i < length (bp_actions bp)) by (rewrite (cm_len _ _ _ _ _ Hc); apply nth_error_Some; rewrite Hi; discriminate).
  destruct (nth_error (bp_actions bp) i) as [a|] eqn:Ha; [|apply nth_error_None in Ha; lia].
  destruct (cm_nth _ _ _ _ _ Hc i a Ha) as (cf' & d & N1 & N2 & N3). rewrite Hi in N1. injection N1 as <-.
  assert (exists a0, compile_typed E svs t (nat_text i) = Some a0 /\ a = set_deps d a0) as (a0 & M2 & ->).
  { assert (K : forall t, option_map (set_deps d) (compile_typed E svs t (nat_text i)) = Some a ->
              exists a0, compile_typed E svs t (nat_text i) = Some a0 /\ a = set_deps d a0).
    { intros t0. destruct (compile_typed E svs t0 (nat_text i)) as [a0|] eqn:H; [|discriminate]. intros [= <-]. eauto. }
    destruct cf as [t0|l]; cbn [compile_action meaning] in *; [injection Hm as ->; now apply K|]. unfold compile_legacy in N3.
    destruct (tget (la_service l) svs) as [[k s0|]|]; try discriminate. destruct k; try discriminate; injection Hm as <-; now apply K. }
  destruct (actions_tasks_all _ _ _ _ _ _ _ _ Ht (set_deps d a0)) as (c2 & tk & c3 & Htc & Hinc).
  { cbn [bp_actions]. apply in_or_app. left. eapply nth_error_In; eauto. }
  destruct (compile_all_nodes _ _ _ _ _ _ _ _ _ M2 Htc _ _ Hw) as (nd & D1 & D2). exists nd. split; [now apply Hinc|exact D2].
Qed.
Lemma not_teardown i a : below (nat_text i) a -> forall j, a <> tx "teardown_" ++ j.
Proof.
  intros H j ->. pose proof (nat_text_digits i) as Hd. pose proof (nat_text_nonempty i) as Hn. destruct (nat_text i) as [|x t]; [easy|].
  destruct H as [H|(r & H)]; cbn in H; injection H as <- _; discriminate.
Qed.
Lemma built_calls E cfg fa s svs bp c p :
  cfg_svs cfg = Some svs -> compile_set E svs (cfg_rsrc E cfg) s = Some bp ->
  select E fa (ctx0 [EvReqHeaders]) = (Some (Some (mkBp (bp_name bp) (bp_preds bp) (bp_actions bp ++ cfg_dev svs cfg))), c) ->
  build E fa (ctx0 [EvReqHeaders]) = BOk p -> calls_ok (nodess (p_queue p)).
Proof.
  intros Hsv Hc Hsel Hb.
  assert (K : forall a s' n g k, In (NCall a s' n g k) (nodess (p_queue p)) -> (a = dev_id /\ k = []) \/
    exists pr tm sq sv m rs kd, configured svs (cfg_rsrc E cfg) s a (mkT pr tm g sq (OpGrpc n sv m rs)) /\ tget sv svs = Some (IDyn kd s') /\ k = map (fun i => a ++ dot :: nat_text i) (seq 0 (length rs))).
  { intros a s' n g k Hi. destruct (built_nodes _ _ _ _ _ _ _ _ Hsv Hc Hsel Hb _ Hi) as [(a' & [pr tm g' sq op] & C1 & C2)|H]; [|left; split; apply H].
    right. destruct C2 as (pe & _ & C2). destruct op; try easy. destruct C2 as (<- & <- & <- & (kd & C3) & ->). exists pr, tm, sq, service, message, on_reply, kd. auto. }
  split.
  - intros a s1 n1 g1 k1 s2 n2 g2 k2 H1 H2. apply K in H1, H2. destruct H1 as [[-> ->]|(p1 & t1 & q1 & v1 & m1 & r1 & d1 & C1 & C2 & ->)].
    + destruct H2 as [[_ ->]|(p2 & t2 & q2 & v2 & m2 & r2 & d2 & C1 & _)]; [now left|]. exfalso. eapply configured_not_dev; eauto.
    + destruct H2 as [[-> ->]|(p2 & t2 & q2 & v2 & m2 & r2 & d2 & D1 & D2 & ->)]; [exfalso; eapply configured_not_dev; eauto|].
      pose proof (configured_unique _ _ _ _ _ _ C1 D1) as H. injection H as -> -> -> -> -> -> -> ->. right. split; [congruence|now split].
  - intros a s1 n1 g1 k1 H1. apply K in H1 as [[-> _]|(p1 & t1 & q1 & v1 & m1 & r1 & d1 & C1 & _)].
    + intros j H. vm_compute in H. discriminate.
    + apply configured_number in C1 as (i & Hi). eapply not_teardown; eauto.
Qed.
