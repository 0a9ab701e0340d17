(** The tasks of a request and the configured actions they come from. *)
From Coq Require Import String List NArith Bool Lia Arith Ascii.
From Verif Require Import Base Value Headers AttrPath Ctx CelProps CelEval Sse Body Tasks Exec Config Legacy Blueprint Factory Filter
  P_Frame P_Apply P_Exec P_Run P_Inv P_Ids P_Plan P_Order P_Term P_Bar.
Import ListNotations.
Open Scope list_scope.

(** * Configured actions and their ids *)
(** [within id t a x]: the action [x] has id [a], inside the action [t] of id [id] *)
Inductive within : text -> taction -> text -> taction -> Prop :=
| wi_self id t : within id t id t
| wi_reply id p tm g sq var service msg rs i r a x :
    nth_error rs i = Some r -> within (id ++ dot :: nat_text i) r a x ->
    within id (mkT p tm g sq (OpGrpc var service msg rs)) a x.
(** a legacy action stands for its translation *)
Definition meaning (svs : list (text * sinst)) (rd : rdata) (c : action_cfg) : option taction :=
  match c with
  | CTyped t => Some t
  | CLegacy l =>
      match tget (la_service l) svs with
      | Some (IDyn SAuth _) => Some (translate_auth l rd)
      | Some (IDyn SRateLimit _) | Some (IDyn SRateLimitCheck _) => Some (translate_ratelimit l rd)
      | Some (IDyn SRateLimitReport _) => Some (translate_report l rd)
      | _ => None
      end
  end.
Definition configured (svs : list (text * sinst)) (rd : rdata) (s : action_set) (a : text) (x : taction) : Prop :=
  exists i c t, nth_error (as_actions s) i = Some c /\ meaning svs rd c = Some t /\ within (nat_text i) t a x.

Lemma within_below id t a x : within id t a x -> below id a.
Proof.
  induction 1 as [id t|id p tm g sq var service msg rs i r a x Hn _ IH]; [apply below_refl|].
  eapply below_trans; [|exact IH]. right. now exists (nat_text i).
Qed.
Lemma below_length id x : below id x -> length id <= length x.
Proof. intros [->|(r & ->)]; rewrite ?app_length; lia. Qed.
Lemma within_unique id t a x : within id t a x -> forall y, within id t a y -> x = y.
Proof.
  induction 1 as [id t|id p tm g sq var service msg rs i r a x Hn Hw IH]; intros y Hy.
  - inversion Hy as [|? ? ? ? ? ? ? ? ? i r ? ? Hn Hw]; subst; [reflexivity|]. exfalso.
    apply within_below, below_length in Hw. rewrite app_length in Hw. simpl in Hw. lia.
  - apply within_below in Hw. inversion Hy as [|? ? ? ? ? ? ? ? ? j r' ? ? Hn' Hw']; subst.
    + exfalso. apply below_length in Hw. rewrite app_length in Hw. simpl in Hw. lia.
    + pose proof (within_below _ _ _ _ Hw') as Hb.
      assert (i = j).
      { apply (below_numbers (id ++ [dot]) i j a); rewrite <- app_assoc; assumption. }
      subst j. rewrite Hn in Hn'. injection Hn' as <-. now apply IH.
Qed.
Lemma configured_unique svs rd s a x y : configured svs rd s a x -> configured svs rd s a y -> x = y.
Proof.
  intros (i & c & t & H1 & H2 & H3) (j & c' & t' & K1 & K2 & K3).
  assert (i = j) by (apply (below_numbers [] i j a); [now apply within_below in H3|now apply within_below in K3]). subst j.
  rewrite H1 in K1. injection K1 as <-. rewrite H2 in K2. injection K2 as <-. eapply within_unique; eauto.
Qed.
Lemma configured_number svs rd s a x : configured svs rd s a x -> exists i, below (nat_text i) a.
Proof. intros (i & c & t & _ & _ & H). exists i. now apply within_below in H. Qed.
Definition dev_id : text := tx "kuadrant.devMode".
Lemma configured_not_dev svs rd s x : ~ configured svs rd s dev_id x.
Proof. intros H. apply configured_number in H as (i & H). now apply dev_not_number in H. Qed.

(** * What the tasks keep of them *)
Definition describes (E : env) (svs : list (text * sinst)) (a : text) (x : taction) (nd : node) : Prop :=
  match x with
  | mkT p tm g _ op =>
      exists pred, parse_expr E p = Some pred /\
      match op, nd with
      | OpGrpc var service m rs, NCall id s v g' kids =>
          id = a /\ v = var /\ g' = g /\ (exists k, tget service svs = Some (IDyn k s)) /\
          kids = map (fun i => a ++ dot :: nat_text i) (seq 0 (length rs))
      | OpGrpc var service m rs, NDyn id m' p' _ => id = a /\ p' = pred /\ parse_expr E m = Some m'
      | OpDeny d, NReply id p' d' tm' => id = a /\ p' = pred /\ parse_expr E d = Some d' /\ tm' = tm
      | OpHeaders m h, NHdr id p' h' m' tm' => id = a /\ p' = pred /\ parse_expr E h = Some h' /\ m' = m /\ tm' = tm
      | OpStore path v ex, NStore id p' v' path' ex' tm' =>
          id = a /\ p' = pred /\ parse_expr E v = Some v' /\ path' = path /\ ex' = ex /\ tm' = tm
      | OpFail _, NFail id p' tm' => id = a /\ p' = pred /\ tm' = tm
      | _, _ => False
      end
  end.
Definition dev_node (nd : node) : Prop :=
  match nd with
  | NCall id _ _ g kids => id = dev_id /\ g = true /\ kids = []
  | NDyn id msg p _ => id = dev_id /\ msg = true_expr /\ p = true_expr
  | NHdr id _ _ m tm => id = dev_id /\ m = MResp /\ tm = false
  | _ => False
  end.

Lemma to_cores_In E rs : forall c ts c', to_cores E rs c = Some (ts, c') ->
  map t_id ts = map a_id rs /\ forall t, In t ts -> exists r c1 c2, In r rs /\ to_core E r c1 = Some (t, c2).
Proof.
  induction rs as [|r rs IH]; intros c ts c'; cbn [to_cores]; [intros [= <- <-]; split; [reflexivity|easy]|].
  destruct (to_core E r c) as [[t1 c2]|] eqn:H1; [|discriminate].
  destruct (to_cores E rs c2) as [[ts2 c3]|] eqn:H2; [|discriminate]. intros [= <- <-].
  apply IH in H2 as [A1 A2]. split.
  - cbn [map]. rewrite A1. f_equal. now apply to_core_shape in H1 as (_ & _ & H & _).
  - intros t [<-|Ht]; [exists r, c, c2; split; [now left|exact H1]|]. apply A2 in Ht as (r' & c4 & c5 & Hi & Ht). exists r', c4, c5. split; [now right|exact Ht].
Qed.
Lemma replies_nth E svs id rs : forall i l, compile_replies E svs id i rs = Some l ->
  map a_id l = map (fun j => id ++ dot :: nat_text j) (seq i (length rs)) /\
  forall a, In a l -> exists j r, nth_error rs j = Some r /\ compile_typed E svs r (id ++ dot :: nat_text (i + j)) = Some a.
Proof.
  induction rs as [|r rs IH]; intros i l; cbn [compile_replies]; [intros [= <-]; split; [reflexivity|easy]|].
  destruct (ta_seq r); [discriminate|].
  destruct (compile_typed E svs r (id ++ dot :: nat_text i)) as [a|] eqn:Ha; [|discriminate].
  destruct (compile_replies E svs id (S i) rs) as [l'|] eqn:Hl; [|discriminate]. intros [= <-].
  apply IH in Hl as [A1 A2]. split.
  - cbn [map seq length]. rewrite A1. f_equal. now apply compile_typed_ids in Ha as (H & _).
  - intros x [<-|Hx].
    + exists 0, r. split; [reflexivity|]. now rewrite Nat.add_0_r.
    + apply A2 in Hx as (j & r' & H1 & H2). exists (S j), r'. split; [exact H1|]. now rewrite Nat.add_succ_r.
Qed.

Lemma compile_nodes E svs t : forall id a d c tk c', compile_typed E svs t id = Some a -> to_core E (set_deps d a) c = Some (tk, c') ->
  forall nd, In nd (nodes tk) -> exists b x, within id t b x /\ describes E svs b x nd.
Proof.
  induction t as [p t g s var sv m rs IH|p t g s o Ho] using taction_ind'; intros id a d c tk c'.
  - rewrite compile_typed_grpc. destruct (parse_expr E p) as [p'|] eqn:Hp; [|discriminate].
    destruct (tget sv svs) as [[k s'|]|] eqn:Hs; try discriminate.
    destruct (compile_replies E svs id 0 rs) as [l|] eqn:Hl; [|discriminate].
    destruct (parse_expr E m) as [m'|] eqn:Hm; [|discriminate]. intros [= <-].
    cbn [set_deps]. rewrite to_core_grpc. destruct (to_cores E l c) as [[ts c1]|] eqn:Ht; [|discriminate]. intros [= <- <-].
    apply replies_nth in Hl as [L1 L2]. apply to_cores_In in Ht as [T1 T2].
    intros nd. cbn [nodes]. rewrite nodes_go. intros [<-|[<-|Hi]].
    + exists id, (mkT p t g s (OpGrpc var sv m rs)). split; [constructor|]. cbn. exists p'. split; [exact Hp|]. repeat split; [now exists k|]. congruence.
    + exists id, (mkT p t g s (OpGrpc var sv m rs)). split; [constructor|]. cbn. exists p'. repeat split; assumption.
    + apply in_flat_map in Hi as (tk & Htk & Hi). apply T2 in Htk as (r & c2 & c3 & Hr & Htc).
      apply L2 in Hr as (j & x & Hj & Hc). rewrite Forall_forall in IH.
      assert (Hd : set_deps [] r = r).
      { pose proof (compile_typed_ids _ _ _ _ _ Hc) as (_ & H & _). destruct r as [i0 p0 t0 o0 d0 g0]. cbn in *. now rewrite H. }
      rewrite <- Hd in Htc. destruct (IH x (nth_error_In _ _ Hj) _ _ _ _ _ _ Hc Htc nd Hi) as (b & y & Hw & Hdes).
      exists b, y. split; [|exact Hdes]. eapply wi_reply; eauto.
  - destruct o; cbn [compile_typed]; [edestruct Ho; reflexivity| | | |]; (destruct (parse_expr E p) as [p'|] eqn:Hp; [|discriminate]);
      try (match goal with |- context [parse_expr E ?e] => destruct (parse_expr E e) as [e'|] eqn:He; [|discriminate] end);
      intros [= <-]; cbn [set_deps to_core]; intros [= <- <-] nd [<-|[]]; eexists id, _; (split; [apply wi_self|]); cbn; exists p'; repeat split; assumption.
Qed.

Lemma dev_nodes E tr h c tk c' : to_core E (dev_action tr h) c = Some (tk, c') -> forall nd, In nd (nodes tk) -> dev_node nd.
Proof.
  unfold dev_action. rewrite to_core_grpc. cbn [to_cores]. destruct tr as [k s|o].
  - intros [= <- <-] nd. cbn [nodes]. intros [<-|[<-|[]]]; cbn; auto.
  - cbv zeta. destruct (request_id E (with_track c (Some h))) as [rid c3]. destruct (parse_expr E (tracker_src h rid)); [|discriminate].
    intros [= <- <-] nd [<-|[]]. cbn. auto.
Qed.

Lemma action_tasks_nodes E rd tr a c ts tds c' : action_tasks E rd tr a c = Some (ts, tds, c') ->
  exists tk c1, to_core E a c = Some (tk, c1) /\ nodess ts = nodes tk.
Proof.
  unfold action_tasks. destruct (to_core E a c) as [[tk c1]|] eqn:H.
  - intros Ha. exists tk, c1. split; [reflexivity|]. revert Ha.
    assert (K : nodess [tk] = nodes tk) by (cbn; apply app_nil_r).
    destruct (a_op a) as [s v m rs|x|x y|x y z|]; try (intros [= <- <- <-]; exact K).
    destruct s as [k s|[t|]]; try (intros [= <- <- <-]; exact K).
    intros [= <- <- <-]. destruct (collect_body_values rd a); destruct tr; cbn; apply app_nil_r.
  - destruct (a_op a) as [s v m rs|x|x y|x y z|]; try discriminate. destruct s as [k s|[t|]]; discriminate.
Qed.
Lemma actions_tasks_nodes E rd tr l : forall c ts tds c', actions_tasks E rd tr l c = Some (ts, tds, c') ->
  forall nd, In nd (nodess ts) -> exists a c1 tk c2, In a l /\ to_core E a c1 = Some (tk, c2) /\ In nd (nodes tk).
Proof.
  induction l as [|a l IH]; intros c ts tds c'; cbn [actions_tasks]; [intros [= <- <- <-] nd []|].
  destruct (action_tasks E rd tr a c) as [[[t1 td1] c1]|] eqn:H1; [|discriminate]. apply action_tasks_nodes in H1 as (tk & c3 & A1 & A2).
  destruct (actions_tasks E rd tr l c1) as [[[t2 td2] c2]|] eqn:H2; [|discriminate]. specialize (IH _ _ _ _ H2).
  intros [= <- <- <-] nd Hi. unfold nodess in *. rewrite flat_map_app, in_app_iff in Hi. destruct Hi as [Hi|Hi].
  - rewrite A2 in Hi. exists a, c, tk, c3. split; [now left|]. now split.
  - destruct (IH nd Hi) as (b & c4 & tk' & c5 & B1 & B2 & B3). exists b, c4, tk', c5. split; [now right|]. now split.
Qed.

(** A request served by the action set [s] *)
Lemma built_nodes E cfg fa s svs bp c p :
  cfg_svs cfg = Some svs -> compile_set E svs (cfg_rsrc E cfg) s = Some bp ->
  select E fa (ctx0 [EvReqHeaders]) = (Some (Some (mkBp (bp_name bp) (bp_preds bp) (bp_actions bp ++ cfg_dev svs cfg))), c) ->
  build E fa (ctx0 [EvReqHeaders]) = BOk p ->
  forall nd, In nd (nodess (p_queue p)) ->
    (exists a x, configured svs (cfg_rsrc E cfg) s a x /\ describes E svs a x nd) \/ dev_node nd.
Proof.
  intros Hsv Hc Hsel Hb nd Hi. pose proof (build_spec E fa (ctx0 [EvReqHeaders])) as Hsp. rewrite Hb in Hsp.
  destruct Hsp as (b & c1 & tds & Hs & Ht & _). rewrite Hsel in Hs. injection Hs as <- <-.
  unfold to_tasks in Ht. destruct (actions_tasks_nodes _ _ _ _ _ _ _ _ Ht nd Hi) as (a & c2 & tk & c3 & Ha & Htc & Hn).
  cbn [bp_actions] in Ha. apply in_app_or in Ha as [Ha|Ha].
  - left. apply compile_set_compiled in Hc. apply In_nth_error in Ha as (i & Ha).
    destruct (cm_nth _ _ _ _ _ Hc i a Ha) as (cf & d & N1 & N2 & N3).
    assert (exists t a0, meaning svs (cfg_rsrc E cfg) cf = Some t /\ compile_typed E svs t (nat_text i) = Some a0 /\ a = set_deps d a0) as (t & a0 & M1 & M2 & ->).
    { assert (K : forall t, option_map (set_deps d) (compile_typed E svs t (nat_text i)) = Some a ->
                exists a0, compile_typed E svs t (nat_text i) = Some a0 /\ a = set_deps d a0).
      { intros t. destruct (compile_typed E svs t (nat_text i)) as [a0|] eqn:H; [|discriminate]. intros [= <-]. eauto. }
      destruct cf as [t|l]; cbn [compile_action meaning] in *; [apply K in N3 as (a0 & H1 & H2); eauto|]. unfold compile_legacy in N3.
      destruct (tget (la_service l) svs) as [[k s0|]|]; try discriminate. destruct k; try discriminate; apply K in N3 as (a0 & H1 & H2); eauto. }
    destruct (compile_nodes _ _ _ _ _ _ _ _ _ M2 Htc nd Hn) as (b & x & Hw & Hd). exists b, x. split; [|exact Hd].
    exists i, cf, t. auto.
  - right. unfold cfg_dev in Ha. destruct (pc_identifier cfg) as [h|]; [|easy]. destruct Ha as [<-|[]]. eapply dev_nodes; eauto.
Qed.
