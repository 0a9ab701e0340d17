(** Expressions about one variable: they can be evaluated as soon as the variable is bound. *)
From Coq Require Import String List NArith ZArith Bool Lia Arith.
From Verif Require Import Base Value Headers AttrPath Ctx CelProps CelEval Sse Body Tasks Exec Config Legacy Blueprint Factory Filter
  P_Frame P_Apply P_Exec P_Run P_Inv P_Ids P_Plan P_Cfg P_Told P_Eff P_Scope P_Props P_Eval.
Import ListNotations.
Open Scope list_scope.

(** [n] is the only name in the expression, and the expression asks for no body field *)
Fixpoint about (n : text) (e : ast) : bool :=
  match e with
  | ALit _ | AUnspec => true
  | AIdent m => text_eqb m n
  | ASelect x _ _ => about n x
  | ACall t f args =>
      negb (text_eqb f (tx "requestBodyJSON")) && negb (text_eqb f (tx "responseBodyJSON")) &&
      match t with Some x => about n x | None => true end && forallb (about n) args
  | AList l => forallb (about n) l
  | AMap l => forallb (fun kv => about n (fst kv) && about n (snd kv)) l
  | AStruct _ l => forallb (fun fv => about n (snd fv)) l
  | AComp _ _ _ _ _ _ _ => false
  end.

Definition led (n : text) (p : path) : Prop := match p with x :: _ => x = n | [] => False end.
Definition same_but (n : text) (s s' : CelProps.pstate) : Prop :=
  ps_req s' = ps_req s /\ ps_resp s' = ps_resp s /\ (Forall (led n) (ps_all s) -> Forall (led n) (ps_all s')).
Lemma same_refl n s : same_but n s s. Proof. now repeat split. Qed.
Lemma same_trans n a b c : same_but n a b -> same_but n b c -> same_but n a c.
Proof. intros (A1 & A2 & A3) (B1 & B2 & B3). repeat split; [congruence|congruence|auto]. Qed.
Lemma props_about n : forall e s, about n e = true -> same_but n s (props e s).
Proof.
  induction e as [v|m|e f b0 IH|t f args IHt IHa|l IH|l IH|ty l IH|a b c d e y z Ia Ib Ic Id Ie|] using ast_ind'; intros s H; try apply same_refl.
  - cbn [props about] in *. apply text_eqb_eq in H as ->. destruct (ps_path s) as [|q p]; [apply same_refl|]. split; [reflexivity|]. split; [reflexivity|]. intros Hs. cbn. apply Forall_app. split; [exact Hs|]. now repeat constructor.
  - cbn [props about] in *. eapply same_trans; [|apply IH, H]. now repeat split.
  - cbn [about] in H. apply andb_prop in H as [H H4]. apply andb_prop in H as [H H3]. apply andb_prop in H as [H1 H2]. apply negb_true_iff in H1, H2.
    rewrite props_call.
    assert (Hn : note_body t f args s = s).
    { unfold note_body, req_json_fn, resp_json_fn. destruct t; [reflexivity|]. destruct args as [|a [|]]; try reflexivity. now rewrite H1, H2. }
    rewrite Hn.
    assert (K : same_but n s (match t with Some x => props x s | None => set_path [] s end)) by (destruct t as [x|]; [now apply (IHt x eq_refl)|now repeat split]).
    eapply same_trans; [exact K|]. generalize (match t with Some x => props x s | None => set_path [] s end) as s2. clear - IHa H4.
    induction IHa as [|y args Hy _ IH]; intros s2; [apply same_refl|]. cbn [props_list forallb] in *. apply andb_prop in H4 as [H4 H5].
    eapply same_trans; [apply Hy, H4|now apply IH].
  - rewrite props_AList. cbn [about] in H. revert s H. induction IH as [|y l Hy _ IH]; intros s H; [apply same_refl|]. cbn [props_list forallb] in *. apply andb_prop in H as [H4 H5].
    eapply same_trans; [apply Hy, H4|now apply IH].
  - rewrite props_AMap. cbn [about] in H. revert s H. induction IH as [|[k v] l [Hk Hv] _ IH]; intros s H; [apply same_refl|]. cbn [props_entries forallb fst snd] in *. apply andb_prop in H as [H4 H5]. apply andb_prop in H4 as [H3 H4].
    eapply same_trans; [apply Hk, H3|]. eapply same_trans; [apply Hv, H4|now apply IH].
  - rewrite props_AStruct. cbn [about] in H. revert s H. induction IH as [|[k v] l Hv _ IH]; intros s H; [apply same_refl|]. cbn [props_fields forallb fst snd] in *. apply andb_prop in H as [H4 H5].
    eapply same_trans; [apply Hv, H4|now apply IH].
  - discriminate.
Qed.

(** the tree of the attributes has no other root *)
Lemma insert_roots n p a : led n p -> forall m, Forall (fun kt : text * token => fst kt = n) m -> Forall (fun kt => fst kt = n) (tok_insert p a m).
Proof.
  assert (K : forall t v m, t = n -> Forall (fun kt : text * token => fst kt = n) m -> Forall (fun kt => fst kt = n) (tset t v m)).
  { intros t v m -> Hm. induction Hm as [|[k0 t0] m H0 Hm IH]; cbn [aset]; [now repeat constructor|]. destruct (text_eqb n k0); constructor; auto. }
  intros Hl m Hm. destruct p as [|t p]; [exact Hm|]. cbn in Hl. cbn [tok_insert]. destruct p as [|u p]; [now apply K|].
  destruct (tget t m) as [[sub|b]|]; auto.
Qed.
Lemma map_roots n l : Forall (fun a => led n (at_path a)) l -> Forall (fun kt => fst kt = n) (attr_map l).
Proof.
  unfold attr_map. assert (K : forall l m, Forall (fun a => led n (at_path a)) l -> Forall (fun kt : text * token => fst kt = n) m -> Forall (fun kt => fst kt = n) (fold_left (fun m a => tok_insert (at_path a) a m) l m)).
  { clear l. induction l as [|a l IH]; intros m Hl Hm; [exact Hm|]. inversion Hl; subst. cbn [fold_left]. apply IH; [assumption|]. now apply insert_roots. }
  intros H. now apply K.
Qed.
Lemma about_attrs n e : about n e = true -> Forall (fun a => led n (at_path a)) (ex_attrs (expr_of e)) /\ ex_req (expr_of e) = [] /\ ex_resp (expr_of e) = [] /\ (n <> tx "request" -> ex_grpc (expr_of e) = false).
Proof.
  intros H. destruct (props_about n e (mkPs [] [] [] []) H) as (H1 & H2 & H3). cbn [ps_req ps_resp ps_all] in *. specialize (H3 (Forall_nil _)).
  unfold expr_of. cbn [ex_attrs ex_req ex_resp ex_grpc]. split; [|split; [exact H1|split; [exact H2|]]].
  - apply Forall_forall. intros a Ha. apply (proj1 (sort_len_In _ _)) in Ha. apply in_map_iff in Ha as (p & <- & Hp). apply filter_In in Hp as [Hp _]. rewrite Forall_forall in H3. now apply H3.
  - intros Hn. induction H3 as [|p l Hp _ IH]; [reflexivity|]. cbn [existsb]. rewrite IH, orb_false_r. destruct p as [|x [|y p]]; try reflexivity. cbn in Hp. subst x. cbn [is_grpc_path].
    destruct (text_eqb n (tx "request")) eqn:Hq; [now apply text_eqb_eq in Hq|reflexivity].
Qed.
(** nothing is stored, or reserved to be stored, that the name could mean *)
Definition free (n : text) (c : ctx) : Prop :=
  tget n (c_vals c) = None /\ ~ In n (c_res c) /\ ~ root_known c n.
Lemma about_eval E n e vs c : about n e = true -> n <> tx "request" -> ~ In n [tx "metadata"; tx "source"; tx "destination"; tx "auth"] -> n <> req_json_var -> n <> resp_json_var ->
  free n c -> exists vs', eval_vars E (expr_of e) vs c = (RAvail vs', c) /\ tget n vs' = tget n vs.
Proof.
  intros Ha Hr Hf Hq1 Hq2 (F1 & F2 & F3). destruct (about_attrs n e Ha) as (A1 & A2 & A3 & A4). specialize (A4 Hr).
  assert (Hh : is_host_root n = false) by (destruct (is_host_root n) eqn:H; [exfalso; apply F3; now left|reflexivity]).
  assert (Hp : host_paths (expr_of e) = []).
  { unfold host_paths. induction A1 as [|a l Hl _ IH]; [reflexivity|]. cbn [map filter]. destruct (at_path a) as [|x p]; [easy|]. cbn in Hl. subst x. now rewrite Hh. }
  assert (Hd : data_map E (expr_of e) c = (RAvail [], c)).
  { unfold data_map. cbn [tok_value]. assert (K : forall l, Forall (fun kt : text * token => fst kt = n) l -> tok_go (fun p t c => tok_value E p t c) [] l [] c = (RAvail (VMap []), c)).
    { induction 1 as [|[k tk] l Hk _ IH]; [reflexivity|]. cbn in Hk. subst k. cbn [tok_go]. unfold val_pending, val_get. rewrite F1.
      assert (mem_text n (c_res c) = false) as ->.
      { unfold mem_text. destruct (existsb (text_eqb n) (c_res c)) eqn:Hx; [|reflexivity]. apply existsb_exists in Hx as (y & Hy & Hq). apply text_eqb_eq in Hq. subst y. now destruct F2. }
      rewrite Hh. assert (val_has_prefix (n ++ [dot]) c = false) as ->.
      { unfold val_has_prefix. apply orb_false_iff. split.
        - destruct (existsb _ (c_vals c)) eqn:Hx; [|reflexivity]. apply existsb_exists in Hx as ([p w] & Hy & Hq). apply starts_with_spec in Hq as (r & Hq). exfalso. apply F3. right. left. exists p, w. split; [exact Hy|]. exists r. cbn in Hq. now rewrite Hq, <- app_assoc.
        - destruct (existsb _ (c_res c)) eqn:Hx; [|reflexivity]. apply existsb_exists in Hx as (p & Hy & Hq). apply starts_with_spec in Hq as (r & Hq). exfalso. apply F3. right. right. exists p. split; [exact Hy|]. exists r. now rewrite Hq, <- app_assoc. }
      cbn [andb negb]. exact IH. }
    rewrite K; [reflexivity|]. now apply map_roots. }
  unfold eval_vars. rewrite Hp. cbn [ensure_attributes].
  match goal with |- context [data_map E _ ?x] => assert (x = c) as -> by reflexivity end.
  rewrite Hd. unfold request_value. rewrite A4, A2, A3. cbn [body_map]. eexists. split; [reflexivity|].
  assert (N : forall x, n <> x -> text_eqb n x = false) by (intros x Hx; destruct (text_eqb n x) eqn:H; [now apply text_eqb_eq in H|reflexivity]).
  cbn [aget]. rewrite (N _ Hq1), (N _ Hq2). 
  assert (Hs : tget n (rev (other_vars [] ++ stored_vars [] c)) = None).
  { apply (aget_None text_eqb text_eqb_eq). rewrite map_rev, <- in_rev. cbn [other_vars flat_map app]. intros Hi. apply in_map_iff in Hi as ([k w] & Hk & Hi). cbn in Hk. subst k.
    unfold stored_vars in Hi. apply in_flat_map in Hi as ([k w'] & H1 & H2). cbn [fst] in H2. destruct (text_eqb (before_char dot k) k); [|easy]. cbn in H2. destruct H2 as [H2|[]]. injection H2 as -> ->.
    apply (aget_None text_eqb text_eqb_eq) in F1. apply F1. apply in_map_iff. now exists (n, w). }
  assert (App : forall (l1 l2 : vars), tget n l1 = None -> tget n (l1 ++ l2) = tget n l2).
  { induction l1 as [|[k w] l1 IH]; intros l2 H; [reflexivity|]. cbn [aget app] in *. destruct (text_eqb n k); [discriminate|]. now apply IH. }
  rewrite (App _ _ Hs). rewrite App.
  - cbn [aget]. now rewrite N.
  - cbn. rewrite !N; [reflexivity|..]; intros ->; apply Hf; cbn; tauto.
Qed.
