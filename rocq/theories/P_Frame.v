(** Frame lemmas: reading and evaluating only extends the attribute cache. *)
From Coq Require Import String List NArith ZArith Bool Lia.
From Verif Require Import Base Value Headers AttrPath Ctx CelProps CelEval.
Import ListNotations.
Open Scope list_scope.

Lemma with_cache_same c : with_cache c (c_cache c) = c.
Proof. now destruct c. Qed.
Lemma with_cache_twice c x y : with_cache (with_cache c x) y = with_cache c y.
Proof. reflexivity. Qed.

(** [ext c c']: same context but for additional cache entries. *)
Definition ext (c c' : ctx) : Prop :=
  exists x, c' = with_cache c x /\ forall k v, tget k (c_cache c) = Some v -> tget k x = Some v.

Lemma ext_refl c : ext c c.
Proof. exists (c_cache c). now rewrite with_cache_same. Qed.
Lemma ext_trans c1 c2 c3 : ext c1 c2 -> ext c2 c3 -> ext c1 c3.
Proof.
  intros (x & -> & Hx) (y & -> & Hy). exists y. split; [reflexivity|]. intros k v H.
  apply Hy. simpl. now apply Hx.
Qed.
Lemma ext_put p v c : cache_get p c = None -> ext c (cache_put p v c).
Proof.
  intros Hn. exists (tset (path_show p) v (c_cache c)). split; [reflexivity|]. intros k w Hk.
  destruct (text_eq_dec k (path_show p)) as [->|Hne].
  - unfold cache_get in Hn. congruence.
  - now rewrite (aget_aset_other text_eqb text_eqb_eq).
Qed.

(** What [ext] keeps *)
Lemma ext_log c c' : ext c c' -> c_log c' = c_log c. Proof. now intros (x & -> & _). Qed.
Lemma ext_reqb c c' : ext c c' -> c_reqb c' = c_reqb c. Proof. now intros (x & -> & _). Qed.
Lemma ext_respb c c' : ext c c' -> c_respb c' = c_respb c. Proof. now intros (x & -> & _). Qed.
Lemma ext_grpc c c' : ext c c' -> c_grpc c' = c_grpc c. Proof. now intros (x & -> & _). Qed.
Lemma ext_rid c c' : ext c c' -> c_rid c' = c_rid c. Proof. now intros (x & -> & _). Qed.
Lemma ext_track c c' : ext c c' -> c_track c' = c_track c. Proof. now intros (x & -> & _). Qed.
Lemma ext_vals c c' : ext c c' -> c_vals c' = c_vals c. Proof. now intros (x & -> & _). Qed.
Lemma ext_res c c' : ext c c' -> c_res c' = c_res c. Proof. now intros (x & -> & _). Qed.
Lemma ext_bar c c' : ext c c' -> c_bar c' = c_bar c. Proof. now intros (x & -> & _). Qed.
Lemma ext_binds c c' : ext c c' -> c_binds c' = c_binds c. Proof. now intros (x & -> & _). Qed.
Lemma ext_cached c c' p v : ext c c' -> cache_get p c = Some v -> cache_get p c' = Some v.
Proof. intros (x & -> & H). unfold cache_get. simpl. apply H. Qed.

Lemma read_attr_ext E p c r c' : read_attr E p c = (r, c') -> ext c c'.
Proof.
  unfold read_attr. destruct (cache_get p c) eqn:Hg.
  - intros [= <- <-]. apply ext_refl.
  - destruct (fetch E (c_log c) p); intros [= <- <-]; try apply ext_refl. now apply ext_put.
Qed.
Lemma populate_ext E c p : ext c (populate E c p).
Proof.
  unfold populate. destruct (cache_get p c) eqn:Hg; [apply ext_refl|].
  destruct (fetch E (c_log c) p); try apply ext_refl. now apply ext_put.
Qed.
Lemma ensure_ext E ps c : ext c (ensure_attributes E ps c).
Proof.
  unfold ensure_attributes. revert c. induction ps as [|p ps IH]; intro c; simpl; [apply ext_refl|].
  eapply ext_trans; [apply populate_ext|apply IH].
Qed.
Lemma read_headers_ext E p c r c' : read_headers E p c = (r, c') -> ext c c'.
Proof.
  unfold read_headers. destruct (read_attr E p c) as [r1 c1] eqn:H. apply read_attr_ext in H.
  destruct r1 as [|[b|h]|]; intros [= <- <-]; exact H.
Qed.
Lemma read_string_ext E p c r c' : read_string E p c = (r, c') -> ext c c'.
Proof.
  unfold read_string. destruct (read_attr E p c) as [r1 c1] eqn:H. apply read_attr_ext in H.
  destruct r1 as [|[[b|]|h]|]; intros [= <- <-]; exact H.
Qed.
Lemma attr_get_ext E a c r c' : attr_get E a c = (r, c') -> ext c c'.
Proof.
  unfold attr_get. destruct (read_attr E (at_path a) c) as [r1 c1] eqn:H. apply read_attr_ext in H.
  destruct r1; intros [= <- <-]; exact H.
Qed.

(** Induction on tokens through the nested list *)
Section TokInd.
  Variable P : token -> Prop.
  Hypothesis HN : forall l, Forall (fun kt => P (snd kt)) l -> P (TokNode l).
  Hypothesis HV : forall a, P (TokVal a).
  Fixpoint token_ind' (t : token) : P t :=
    match t with
    | TokNode l => HN l ((fix go l : Forall (fun kt => P (snd kt)) l :=
                            match l with
                            | [] => Forall_nil _
                            | x :: l' => Forall_cons x (token_ind' (snd x)) (go l')
                            end) l)
    | TokVal a => HV a
    end.
End TokInd.

Lemma tok_value_ext E t : forall prefix c r c', tok_value E prefix t c = (r, c') -> ext c c'.
Proof.
  induction t as [l IH|a] using token_ind'; intros prefix c r c'; simpl.
  - generalize (@nil (mkey * value)) as out0. revert c.
    induction IH as [|[key tk] l Ht Hl IHl]; intros c out; simpl.
    + intros [= <- <-]. apply ext_refl.
    + simpl in Ht. destruct (val_get _ c); [apply IHl|].
      destruct (val_pending _ c); [intros [= <- <-]; apply ext_refl|].
      destruct (_ && _ && _); [apply IHl|].
      destruct (tok_value E _ tk c) as [[|v|] c1] eqn:H; apply Ht in H.
      * intros [= <- <-]. exact H.
      * intros H2. eapply ext_trans; [exact H|]. eapply IHl; exact H2.
      * intros [= <- <-]. exact H.
  - apply attr_get_ext.
Qed.

Lemma data_map_ext E ex c r c' : data_map E ex c = (r, c') -> ext c c'.
Proof.
  unfold data_map. destruct (tok_value E [] _ c) as [r1 c1] eqn:H. apply tok_value_ext in H.
  destruct r1 as [|[]|]; intros [= <- <-]; exact H.
Qed.
Lemma resolve_grpc_ext E c r c' : resolve_grpc E c = (r, c') -> ext c c'.
Proof.
  unfold resolve_grpc. destruct (h_reqheader E _ _) as [ct|]; [|intros [= <- <-]; apply ext_refl].
  destruct (is_grpc_content_type ct); [|intros [= <- <-]; apply ext_refl].
  destruct (read_string E _ c) as [[|[p|]|] c1] eqn:H; apply read_string_ext in H; intros [= <- <-]; exact H.
Qed.
Lemma request_value_ext E ex m c r c' : request_value E ex m c = (r, c') -> ext c c'.
Proof.
  unfold request_value. destruct (ex_grpc ex); [|intros [= <- <-]; apply ext_refl].
  destruct (resolve_grpc E c) as [g c1] eqn:H. apply resolve_grpc_ext in H. intros [= <- <-]. exact H.
Qed.
Lemma eval_vars_ext E ex vs c r c' : eval_vars E ex vs c = (r, c') -> ext c c'.
Proof.
  unfold eval_vars. pose proof (ensure_ext E (host_paths ex) c) as H0.
  destruct (data_map E ex _) as [[|m|] c2] eqn:H1; apply data_map_ext in H1;
    pose proof (ext_trans _ _ _ H0 H1) as H; try (intros [= <- <-]; exact H).
  destruct (request_value E ex m c2) as [rv c3] eqn:H2. apply request_value_ext in H2.
  pose proof (ext_trans _ _ _ H H2) as H3.
  destruct (body_map (ex_resp ex) _ _); [|intros [= <- <-]; exact H3].
  destruct (body_map (ex_req ex) _ _); intros [= <- <-]; exact H3.
Qed.
Lemma eval_in_ext E ex vs c r vs' c' : eval_in E ex vs c = (r, vs', c') -> ext c c'.
Proof.
  unfold eval_in. destruct (eval_vars E ex vs c) as [[|v|] c1] eqn:H; apply eval_vars_ext in H;
    intros [= <- <- <-]; exact H.
Qed.
Lemma test_in_ext E ex vs c r vs' c' : test_in E ex vs c = (r, vs', c') -> ext c c'.
Proof.
  unfold test_in. destruct (eval_in E ex vs c) as [[r1 vs1] c1] eqn:H. apply eval_in_ext in H.
  intros [= <- <- <-]. exact H.
Qed.
Lemma route_loop_ext E ps : forall vs c r c', route_loop E ps vs c = (r, c') -> ext c c'.
Proof.
  induction ps as [|p ps IH]; intros vs c r c'; simpl; [intros [= <- <-]; apply ext_refl|].
  destruct (test_in E p vs c) as [[r1 vs1] c1] eqn:H. apply test_in_ext in H.
  destruct r1 as [|[]|]; try (intros [= <- <-]; exact H).
  intros H2. eapply ext_trans; [exact H|]. eapply IH; exact H2.
Qed.
Lemma route_match_ext E ps c r c' : route_match E ps c = (r, c') -> ext c c'.
Proof.
  unfold route_match. destruct ps as [|p ps]; [intros [= <- <-]; apply ext_refl|].
  intros H. apply route_loop_ext in H. eapply ext_trans; [apply ensure_ext|exact H].
Qed.

(** [request_id] may also fix the request id; [xrid] allows that. *)
Definition xrid (c c' : ctx) : Prop :=
  exists x r, c' = with_rid (with_cache c x) r /\
    (forall k v, tget k (c_cache c) = Some v -> tget k x = Some v) /\
    (forall i, c_rid c = Some i -> r = Some i).
Lemma ext_xrid c c' : ext c c' -> xrid c c'.
Proof. intros (x & -> & H). exists x, (c_rid c). destruct c; now repeat split. Qed.
Lemma xrid_refl c : xrid c c. Proof. apply ext_xrid, ext_refl. Qed.
Lemma xrid_trans c1 c2 c3 : xrid c1 c2 -> xrid c2 c3 -> xrid c1 c3.
Proof.
  intros (x & r & -> & Hx & Hr) (y & s & -> & Hy & Hs). exists y, s. repeat split.
  - intros k v H. apply Hy. simpl. now apply Hx.
  - intros i H. apply Hs. simpl. now apply Hr.
Qed.
Lemma xrid_log c c' : xrid c c' -> c_log c' = c_log c. Proof. now intros (x & r & -> & _). Qed.
Lemma xrid_cached c c' p v : xrid c c' -> cache_get p c = Some v -> cache_get p c' = Some v.
Proof. intros (x & r & -> & H & _). unfold cache_get. simpl. apply H. Qed.
Lemma xrid_bar c c' : xrid c c' -> c_bar c' = c_bar c. Proof. now intros (x & r & -> & _). Qed.
Lemma xrid_grpc c c' : xrid c c' -> c_grpc c' = c_grpc c. Proof. now intros (x & r & -> & _). Qed.
Lemma xrid_res c c' : xrid c c' -> c_res c' = c_res c. Proof. now intros (x & r & -> & _). Qed.
Lemma xrid_track c c' : xrid c c' -> c_track c' = c_track c. Proof. now intros (x & r & -> & _). Qed.
Lemma xrid_rid c c' i : xrid c c' -> c_rid c = Some i -> c_rid c' = Some i.
Proof. intros (x & r & -> & _ & H) Hi. simpl. now apply H. Qed.

Lemma request_id_xrid E c id c' : request_id E c = (id, c') -> xrid c c' /\ c_rid c' = Some id.
Proof.
  unfold request_id. destruct (c_rid c) as [i|] eqn:Hr.
  - intros [= <- <-]. split; [apply xrid_refl|exact Hr].
  - assert (K : forall c1 i, ext c c1 -> xrid c (with_rid c1 (Some i)) /\ c_rid (with_rid c1 (Some i)) = Some i).
    { intros c1 i (x & -> & H). split; [|reflexivity]. exists x, (Some i). repeat split; [exact H|].
      intros j Hj. congruence. }
    destruct (read_headers E p_req_headers c) as [[|h|] c1] eqn:H; apply read_headers_ext in H.
    + intros [= <- <-]. now apply K.
    + destruct (h_get _ h); intros [= <- <-]; now apply K.
    + intros [= <- <-]. now apply K.
Qed.
Lemma tracker_xrid E c r c' : tracker E c = (r, c') -> xrid c c'.
Proof.
  unfold tracker. destruct (c_track c); [|intros [= <- <-]; apply xrid_refl].
  destruct (request_id E c) as [rid c1] eqn:H. apply request_id_xrid in H. intros [= <- <-]. apply H.
Qed.
