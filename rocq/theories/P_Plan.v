(** Tasks built from a configuration: their ids and dependencies. *)
From Coq Require Import String List NArith Bool Lia Arith Ascii.
From Verif Require Import Base Value Headers AttrPath Ctx CelProps CelEval Sse Body Tasks Exec Config Legacy Blueprint Factory Filter
  P_Frame P_Apply P_Exec P_Inv P_Ids P_Run.
Import ListNotations.
Open Scope list_scope.

(** Properties of a history, event by event: [P e l] for each event [e] with history [l] *)
Fixpoint hist (P : ev -> log -> Prop) (l : log) : Prop :=
  match l with [] => True | e :: l' => P e l' /\ hist P l' end.
Lemma hist_spec (P : ev -> log -> Prop) (l : log) : hist P l <-> forall l2 e l1, l = l2 ++ e :: l1 -> P e l1.
Proof.
  induction l as [|e l IH]; simpl.
  - split; [|easy]. intros _ l2 e l1 H. destruct l2; discriminate.
  - rewrite IH. split.
    + intros [H1 H2] l2 e' l1 H. destruct l2 as [|x l2]; simpl in H; injection H as -> ->; [exact H1|]. now apply (H2 l2).
    + intros H. split; [now apply (H [])|]. intros l2 e' l1 ->. now apply (H (e :: l2)).
Qed.
Lemma NoDup_app_intro {A} (l l' : list A) : NoDup l -> NoDup l' -> (forall x, In x l -> In x l' -> False) -> NoDup (l ++ l').
Proof.
  induction 1 as [|x l Hx _ IH]; simpl; intros Hl' H; [exact Hl'|]. constructor.
  - intros Hi. apply in_app_or in Hi as [Hi|Hi]; [now apply Hx|]. apply (H x); auto.
  - apply IH; auto. intros y H1 H2. apply (H y); auto.
Qed.
Lemma hist_app (P : ev -> log -> Prop) (l l' : log) : (forall e l1, In e l -> P e l1) -> hist P l' -> hist P (l ++ l').
Proof.
  induction l as [|e l IH]; simpl; intros H Hh; [exact Hh|]. split; [apply H; now left|]. apply IH; auto.
Qed.

(** Ids of the actions below an action *)
Fixpoint a_ids (a : action) : list text :=
  match a with
  | mkAct id _ _ op _ _ =>
      match op with
      | BGrpc (IDyn _ _) _ _ rs => id :: (fix go l := match l with [] => [] | r :: l' => a_ids r ++ go l' end) rs
      | _ => [id]
      end
  end.
Definition b_ids (l : list action) : list text := flat_map a_ids l.
Lemma a_ids_go rs : (fix go l := match l with [] => [] | r :: l' => a_ids r ++ go l' end) rs = b_ids rs.
Proof. induction rs as [|r rs IH]; simpl; [reflexivity|]. now rewrite IH. Qed.

(** Dependencies of the actions below a task / an action: only gRPC actions have any *)
Fixpoint dl (t : task) : list (text * list text) :=
  match t with
  | TDynamic id _ _ _ rs _ d _ => (id, d) :: (fix go l := match l with [] => [] | r :: l' => dl r ++ go l' end) rs
  | TPending id _ _ rs _ => (fix go l := match l with [] => [] | r :: l' => dl r ++ go l' end) rs
  | TFailureMode t _ | TTracing t => dl t
  | TFail id _ _ | THeaders id _ _ _ _ | TReply id _ _ _ | TStore id _ _ _ _ _ _ => [(id, [])]
  | _ => []
  end.
Definition dls (l : list task) : list (text * list text) := flat_map dl l.
Lemma dl_go rs : (fix go l := match l with [] => [] | r :: l' => dl r ++ go l' end) rs = dls rs.
Proof. induction rs as [|r rs IH]; simpl; [reflexivity|]. now rewrite IH. Qed.
Fixpoint a_dl (a : action) : list (text * list text) :=
  match a with
  | mkAct id _ _ op d _ =>
      match op with
      | BGrpc (IDyn _ _) _ _ rs => (id, d) :: (fix go l := match l with [] => [] | r :: l' => a_dl r ++ go l' end) rs
      | _ => [(id, [])]
      end
  end.
Definition b_dl (l : list action) : list (text * list text) := flat_map a_dl l.
Lemma a_dl_go rs : (fix go l := match l with [] => [] | r :: l' => a_dl r ++ go l' end) rs = b_dl rs.
Proof. induction rs as [|r rs IH]; simpl; [reflexivity|]. now rewrite IH. Qed.

Lemma a_dl_ids a : map fst (a_dl a) = a_ids a.
Proof.
  induction a as [id p tm s var m rs d g IH|id p tm o d g Ho] using action_ind'.
  - destruct s as [k s|s]; [|reflexivity]. cbn [a_dl a_ids map fst]. rewrite a_dl_go, a_ids_go. f_equal.
    induction IH as [|r rs Hr _ IH]; simpl; [reflexivity|]. rewrite map_app, Hr. f_equal. exact IH.
  - destruct o; try reflexivity. edestruct Ho; reflexivity.
Qed.
Lemma b_dl_ids l : map fst (b_dl l) = b_ids l.
Proof. induction l as [|a l IH]; simpl; [reflexivity|]. now rewrite map_app, a_dl_ids, IH. Qed.

Lemma to_core_shape E a : forall c t c', to_core E a c = Some (t, c') ->
  idl t = a_ids a /\ wf_q t /\ t_id t = a_id a /\ dl t = a_dl a.
Proof.
  induction a as [id p tm s var m rs d g IH|id p tm o d g Ho] using action_ind'; intros c t c'.
  - rewrite to_core_grpc.
    assert (K : forall c ts c1, to_cores E rs c = Some (ts, c1) -> idls ts = b_ids rs /\ Forall wf_q ts /\ dls ts = b_dl rs).
    { clear -IH. induction IH as [|r rs Hr _ IH]; intros c ts c1; simpl; [intros [= <- <-]; now repeat constructor|].
      destruct (to_core E r c) as [[t1 c2]|] eqn:H1; [|discriminate].
      destruct (to_cores E rs c2) as [[ts2 c3]|] eqn:H2; [|discriminate]. intros [= <- <-].
      apply Hr in H1 as (A1 & A2 & A3 & A4). apply IH in H2 as (B1 & B2 & B3). simpl.
      rewrite A1, B1, A4, B3. repeat split. now constructor. }
    destruct (to_cores E rs c) as [[ts c1]|] eqn:H1; [|discriminate]. apply K in H1 as (A1 & A2 & A3).
    destruct s as [k sv|o].
    + intros [= <- <-]. cbn [idl a_ids wf_q t_id a_id dl a_dl].
      rewrite idl_go, a_ids_go, dl_go, a_dl_go, A1, A3. repeat split. now apply wf_qs_Forall.
    + cbv zeta. destruct (request_id E (with_track c1 (Some var))) as [rid c3] eqn:H2.
      destruct (parse_expr E (tracker_src var rid)); [|discriminate]. intros [= <- <-]. now repeat split.
  - destruct o; simpl; try (intros [= <- <-]; now repeat split). edestruct Ho; reflexivity.
Qed.

Lemma action_tasks_shape E rd tr a c ts tds c' : action_tasks E rd tr a c = Some (ts, tds, c') ->
  idls ts = a_ids a /\ Forall wf_q ts /\ dls ts = a_dl a.
Proof.
  unfold action_tasks. destruct (to_core E a c) as [[tk c1]|] eqn:H.
  - apply to_core_shape in H as (A1 & A2 & A3 & A4).
    assert (K : idls [tk] = a_ids a /\ Forall wf_q [tk] /\ dls [tk] = a_dl a).
    { simpl. rewrite !app_nil_r. repeat split; auto. }
    destruct (a_op a) as [s v m rs|x|x y|x y z|]; try (intros [= <- <- <-]; exact K).
    destruct s as [k s|[t|]]; try (intros [= <- <- <-]; exact K).
    intros [= <- <- <-]. destruct K as (K1 & K2 & K3). simpl in K1, K3. rewrite app_nil_r in *.
    destruct (collect_body_values rd a); destruct tr; simpl; rewrite !app_nil_r; repeat split; auto; repeat constructor; auto.
  - destruct (a_op a) as [s v m rs|x|x y|x y z|]; try discriminate. destruct s as [k s|[t|]]; discriminate.
Qed.
Lemma actions_tasks_shape E rd tr l : forall c ts tds c', actions_tasks E rd tr l c = Some (ts, tds, c') ->
  idls ts = b_ids l /\ Forall wf_q ts /\ dls ts = b_dl l.
Proof.
  induction l as [|a l IH]; intros c ts tds c'; simpl; [intros [= <- <- <-]; now repeat constructor|].
  destruct (action_tasks E rd tr a c) as [[[t1 td1] c1]|] eqn:H1; [|discriminate]. apply action_tasks_shape in H1 as (A1 & A2 & A3).
  destruct (actions_tasks E rd tr l c1) as [[[t2 td2] c2]|] eqn:H2; [|discriminate]. apply IH in H2 as (B1 & B2 & B3).
  intros [= <- <- <-]. unfold idls, dls in *. rewrite !flat_map_app, A1, B1, A3, B3. repeat split. now apply Forall_app.
Qed.

(** Ids produced by the compiler: below [id] *)
Definition below (id x : text) : Prop := x = id \/ exists r, x = id ++ dot :: r.

(** Induction on typed actions *)
Section TaInd.
  Variable P : taction -> Prop.
  Hypothesis HG : forall p t g s var sv m rs, Forall P rs -> P (mkT p t g s (OpGrpc var sv m rs)).
  Hypothesis HO : forall p t g s o, (forall var sv m rs, o <> OpGrpc var sv m rs) -> P (mkT p t g s o).
  Fixpoint taction_ind' (a : taction) : P a :=
    match a with
    | mkT p t g s o =>
        match o as o return P (mkT p t g s o) with
        | OpGrpc var sv m rs =>
            HG p t g s var sv m rs
              ((fix go l : Forall P l := match l with [] => Forall_nil P | x :: l' => Forall_cons x (taction_ind' x) (go l') end) rs)
        | _ => ltac:(apply HO; discriminate)
        end
    end.
End TaInd.

(** the reply actions of an action *)
Definition compile_replies (E : env) (svs : list (text * sinst)) (id : text) :=
  fix go (i : nat) (l : list taction) : option (list action) :=
    match l with
    | [] => Some []
    | r :: l' =>
        if ta_seq r then None
        else match compile_typed E svs r (id ++ dot :: nat_text i), go (S i) l' with
             | Some a, Some l'' => Some (a :: l'')
             | _, _ => None
             end
    end.
Lemma compile_typed_grpc E svs p t g s var sv m rs id :
  compile_typed E svs (mkT p t g s (OpGrpc var sv m rs)) id =
  match parse_expr E p with
  | None => None
  | Some p =>
      match tget sv svs with
      | Some (IDyn k s) =>
          match compile_replies E svs id 0 rs with
          | None => None
          | Some rs => match parse_expr E m with None => None | Some m => Some (mkAct id p t (BGrpc (IDyn k s) var m rs) [] g) end
          end
      | _ => None
      end
  end.
Proof. reflexivity. Qed.

Lemma below_refl id : below id id. Proof. now left. Qed.
Lemma below_trans a b c : below a b -> below b c -> below a c.
Proof.
  intros [->|(r & ->)] [->|(r' & ->)]; [left; reflexivity|right; eexists; reflexivity|right; eexists; reflexivity|].
  right. exists (r ++ dot :: r'). now rewrite <- app_assoc.
Qed.
Definition nodot (s : text) : Prop := ~ In dot s.
Lemma nodot_split a b ra rb : nodot a -> nodot b -> a ++ dot :: ra = b ++ dot :: rb -> a = b.
Proof.
  revert b. induction a as [|x a IH]; intros [|y b] Ha Hb H; simpl in H; [reflexivity| | |].
  - injection H as H _. exfalso. apply Hb. left. now symmetry.
  - injection H as H _. exfalso. apply Ha. now left.
  - injection H as -> H. f_equal. apply IH; auto; intros Hi; [apply Ha|apply Hb]; now right.
Qed.
Lemma nat_text_nodot n : nodot (nat_text n).
Proof.
  intros H. pose proof (nat_text_digits n) as Hd. rewrite forallb_forall in Hd. apply Hd in H. discriminate.
Qed.
(** ids below different numbers differ *)
Lemma below_numbers pre i j x : below (pre ++ nat_text i) x -> below (pre ++ nat_text j) x -> i = j.
Proof.
  intros Hi Hj. apply nat_text_inj.
  destruct Hi as [->|(ra & ->)], Hj as [Hj|(rb & Hj)].
  - now apply app_inv_head in Hj.
  - rewrite <- app_assoc in Hj. apply app_inv_head in Hj. exfalso. apply (nat_text_nodot i). rewrite Hj. apply in_or_app. right. now left.
  - rewrite <- app_assoc in Hj. apply app_inv_head in Hj. exfalso. apply (nat_text_nodot j). rewrite <- Hj. apply in_or_app. right. now left.
  - rewrite <- !app_assoc in Hj. apply app_inv_head in Hj. eapply nodot_split; eauto using nat_text_nodot.
Qed.

Lemma replies_ids E svs id rs : 
  Forall (fun t => forall id a, compile_typed E svs t id = Some a ->
     a_id a = id /\ a_deps a = [] /\ NoDup (a_ids a) /\ Forall (below id) (a_ids a) /\ (forall x d, In (x, d) (a_dl a) -> d = [] /\ In x (a_ids a))) rs ->
  forall i l, compile_replies E svs id i rs = Some l ->
  NoDup (b_ids l) /\ (forall x, In x (b_ids l) -> exists j, i <= j /\ below (id ++ dot :: nat_text j) x) /\
  (forall x d, In (x, d) (b_dl l) -> d = [] /\ In x (b_ids l)).
Proof.
  induction 1 as [|t rs Ht _ IH]; intros i l; simpl.
  - intros [= <-]. simpl. repeat split; try easy. constructor.
  - destruct (ta_seq t); [discriminate|].
    destruct (compile_typed E svs t (id ++ dot :: nat_text i)) as [a|] eqn:Ha; [|discriminate].
    destruct (compile_replies E svs id (S i) rs) as [l'|] eqn:Hl; [|discriminate]. intros [= <-].
    apply Ht in Ha as (A1 & A2 & A3 & A4 & A5). apply IH in Hl as (B1 & B2 & B3). simpl. rewrite Forall_forall in A4. repeat split.
    + apply NoDup_app_intro; auto. intros x H1 H2. apply A4 in H1. apply B2 in H2 as (j & Hj & H2).
      change (id ++ dot :: nat_text i) with (id ++ [dot] ++ nat_text i) in H1.
      change (id ++ dot :: nat_text j) with (id ++ [dot] ++ nat_text j) in H2. rewrite app_assoc in H1, H2.
      pose proof (below_numbers _ _ _ _ H1 H2). lia.
    + intros x Hx. apply in_app_or in Hx as [Hx|Hx]; [exists i; split; [lia|now apply A4]|].
      apply B2 in Hx as (j & Hj & Hx). exists j. split; [lia|exact Hx].
    + apply in_app_or in H as [H|H]; [now apply A5 in H|now apply B3 in H].
    + apply in_app_or in H as [H|H]; [apply A5 in H|apply B3 in H]; apply in_or_app; [left|right]; apply H.
Qed.

Lemma compile_typed_ids E svs t : forall id a, compile_typed E svs t id = Some a ->
  a_id a = id /\ a_deps a = [] /\ NoDup (a_ids a) /\ Forall (below id) (a_ids a) /\
  (forall x d, In (x, d) (a_dl a) -> d = [] /\ In x (a_ids a)).
Proof.
  induction t as [p t g s var sv m rs IH|p t g s o Ho] using taction_ind'; intros id a.
  - rewrite compile_typed_grpc. destruct (parse_expr E p) as [p'|]; [|discriminate].
    destruct (tget sv svs) as [[k s'|]|]; try discriminate.
    destruct (compile_replies E svs id 0 rs) as [l|] eqn:Hl; [|discriminate].
    destruct (parse_expr E m) as [m'|]; [|discriminate]. intros [= <-].
    apply (replies_ids E svs id rs IH) in Hl as (B1 & B2 & B3).
    cbn [a_id a_deps a_ids a_dl]. rewrite a_ids_go, a_dl_go. repeat split.
    + constructor; [|exact B1]. intros Hi. apply B2 in Hi as (j & _ & [Hi|(r & Hi)]);
        apply (f_equal (@length ascii)) in Hi; rewrite ?app_length in Hi; simpl in Hi; rewrite ?app_length in Hi; simpl in Hi; lia.
    + constructor; [apply below_refl|]. apply Forall_forall. intros x Hx. apply B2 in Hx as (j & _ & Hx).
      eapply below_trans; [|exact Hx]. right. now exists (nat_text j).
    + destruct H as [H|H]; [now injection H as <- <-|now apply B3 in H].
    + destruct H as [H|H]; [injection H as <- <-; now left|right; now apply B3 in H].
  - destruct o; simpl; [edestruct Ho; reflexivity| | | |];
      (destruct (parse_expr E p) as [p'|]; [|discriminate]);
      try (match goal with |- context [parse_expr E ?e] => destruct (parse_expr E e) as [e'|]; [|discriminate] end);
      intros [= <-]; cbn [a_id a_deps a_ids a_dl]; (split; [reflexivity|]); (split; [reflexivity|]); (split; [repeat constructor; easy|]);
      (split; [repeat constructor; apply below_refl|]); intros x d [[= <- <-]|[]]; (split; [reflexivity|now left]).
Qed.

(** One configured action, whatever its kind, is a typed action with dependencies *)
Lemma compile_action_typed E svs rd i a d act : compile_action E svs rd (i, (a, d)) = Some act ->
  exists t act0, compile_typed E svs t (nat_text i) = Some act0 /\ act = set_deps d act0.
Proof.
  assert (K : forall t, option_map (set_deps d) (compile_typed E svs t (nat_text i)) = Some act ->
                exists t act0, compile_typed E svs t (nat_text i) = Some act0 /\ act = set_deps d act0).
  { intros t. destruct (compile_typed E svs t (nat_text i)) as [a0|] eqn:H; [|discriminate]. intros [= <-]. eauto. }
  destruct a as [t|l]; simpl; [apply K|]. unfold compile_legacy.
  destruct (tget (la_service l) svs) as [[k s|]|]; try discriminate. destruct k; try discriminate; apply K.
Qed.
Lemma set_deps_facts d a : a_id (set_deps d a) = a_id a /\ a_deps (set_deps d a) = d /\ a_op (set_deps d a) = a_op a /\
  a_ids (set_deps d a) = a_ids a /\ a_guard (set_deps d a) = a_guard a.
Proof. destruct a as [i p t o d0 g]. now repeat split. Qed.
Lemma set_deps_dl d a x e : In (x, e) (a_dl (set_deps d a)) -> (x = a_id a /\ e = d) \/ In (x, e) (a_dl a).
Proof.
  destruct a as [i p t o d0 g]. destruct o as [[k s|t'] v m rs| | | |]; simpl; try tauto.
  intros [H|H]; [injection H as <- <-; now left|right; now right].
Qed.
Lemma set_deps_dl_self d a : (exists k s v m rs, a_op a = BGrpc (IDyn k s) v m rs) -> In (a_id a, d) (a_dl (set_deps d a)).
Proof. destruct a as [i p t o d0 g]. simpl. intros (k & s & v & m & rs & ->). now left. Qed.

(** What the compiled actions of a set look like *)
Record compiled (E : env) (svs : list (text * sinst)) (rd : rdata) (s : action_set) (l : list action) : Prop := {
  cm_len : length l = length (as_actions s);
  cm_nth : forall i a, nth_error l i = Some a ->
             exists cf d, nth_error (as_actions s) i = Some cf /\ nth_error (compute_dependencies (as_actions s)) i = Some d /\
                          compile_action E svs rd (i, (cf, d)) = Some a }.

Lemma deps_from_len l : forall i f p, length (deps_from i f p l) = length l.
Proof. induction l as [|[t|t] l IH]; intros i f p; simpl; auto. destruct (ta_seq t); simpl; auto. Qed.
Lemma map_opt_spec {A B} (f : A -> option B) l : forall l', map_opt f l = Some l' ->
  length l' = length l /\ forall i b, nth_error l' i = Some b -> exists a, nth_error l i = Some a /\ f a = Some b.
Proof.
  induction l as [|a l IH]; intros l'; simpl; [intros [= <-]; split; [easy|intros [|i] b; discriminate]|].
  destruct (f a) eqn:Ha; [|discriminate]. destruct (map_opt f l) eqn:Hl; [|discriminate]. intros [= <-].
  destruct (IH _ eq_refl) as [H1 H2]. split; [simpl; now rewrite H1|]. intros [|i] b' H; simpl in H; [injection H as <-; exists a; now split|]. now apply H2.
Qed.
Lemma nth_error_combine {A B} (l : list A) : forall (l' : list B) i x, nth_error (combine l l') i = Some x ->
  nth_error l i = Some (fst x) /\ nth_error l' i = Some (snd x).
Proof.
  induction l as [|a l IH]; intros [|b l'] [|i] x; simpl; try discriminate; [now intros [= <-]|apply IH].
Qed.
Lemma nth_error_seq n m i x : nth_error (seq n m) i = Some x -> x = n + i.
Proof.
  revert n i. induction m as [|m IH]; intros n [|i]; simpl; try discriminate; [intros [= <-]; lia|].
  intros H. apply IH in H. lia.
Qed.
Lemma compile_set_compiled E svs rd s bp : compile_set E svs rd s = Some bp -> compiled E svs rd s (bp_actions bp).
Proof.
  unfold compile_set. destruct (map_opt (parse_expr E) (as_preds s)); [|discriminate].
  destruct (map_opt _ _) as [acts|] eqn:H; [|discriminate]. intros [= <-]. apply map_opt_spec in H as [H1 H2].
  unfold enumerate in *. constructor.
  - cbn [bp_actions]. rewrite H1. rewrite !combine_length, seq_length. unfold compute_dependencies. rewrite deps_from_len. lia.
  - cbn [bp_actions]. intros i a Hi. apply H2 in Hi as ((j & cf & d) & Hn & Hc). apply nth_error_combine in Hn as [Hj Hn].
    apply nth_error_combine in Hn as [Hn1 Hn2]. apply nth_error_seq in Hj. simpl in *. subst j. eauto.
Qed.

Definition digits_first (x : text) : Prop := exists i, below (nat_text i) x.
Lemma map_opt_ids E svs rd (l : list (action_cfg * list text)) : forall i acts,
  map_opt (compile_action E svs rd) (combine (seq i (length l)) l) = Some acts ->
  NoDup (b_ids acts) /\ (forall x, In x (b_ids acts) -> exists j, i <= j /\ below (nat_text j) x).
Proof.
  induction l as [|[cf d] l IH]; intros i acts; cbn [map_opt combine seq length]; [intros [= <-]; split; [constructor|easy]|].
  destruct (compile_action E svs rd (i, (cf, d))) as [a|] eqn:Ha; [|discriminate].
  destruct (map_opt _ _) as [acts'|] eqn:Hl; [|discriminate]. intros [= <-].
  apply IH in Hl as [B1 B2]. apply compile_action_typed in Ha as (t & a0 & Ht & ->).
  apply compile_typed_ids in Ht as (A1 & A2 & A3 & A4 & A5). destruct (set_deps_facts d a0) as (_ & _ & _ & F & _).
  simpl. rewrite F. rewrite Forall_forall in A4. split.
  - apply NoDup_app_intro; auto. intros x H1 H2. apply A4 in H1. apply B2 in H2 as (j & Hj & H2).
    pose proof (below_numbers [] i j x H1 H2). lia.
  - intros x Hx. apply in_app_or in Hx as [Hx|Hx]; [exists i; split; [lia|now apply A4]|].
    apply B2 in Hx as (j & Hj & Hx). exists j. split; [lia|exact Hx].
Qed.
Lemma compile_set_ids E svs rd s bp : compile_set E svs rd s = Some bp ->
  NoDup (b_ids (bp_actions bp)) /\ (forall x, In x (b_ids (bp_actions bp)) -> digits_first x).
Proof.
  unfold compile_set. destruct (map_opt (parse_expr E) (as_preds s)); [|discriminate].
  destruct (map_opt _ _) as [acts|] eqn:H; [|discriminate]. intros [= <-]. unfold enumerate in H.
  apply map_opt_ids in H as [H1 H2]. split; [exact H1|]. intros x Hx. apply H2 in Hx as (j & _ & Hx). now exists j.
Qed.

(** Blueprints a configuration can serve *)
Definition cfg_svs (cfg : plugin_cfg) : option (list (text * sinst)) :=
  map_opt (fun kv => option_map (pair (fst kv)) (inst_of (snd kv))) (pc_services cfg).
Definition cfg_rd (E : env) (cfg : plugin_cfg) :=
  sort_rd (filter_map (fun kv => option_map (fun e => (domain_and_field (o_alpha E) (fst kv), (snd kv, e)))
                               (parse_expr E (snd kv))) (pc_request_data cfg)).
Definition cfg_rsrc (E : env) (cfg : plugin_cfg) : rdata := map (fun r => (fst r, fst (snd r))) (cfg_rd E cfg).
Definition cfg_tracing (svs : list (text * sinst)) (cfg : plugin_cfg) : sinst :=
  match pc_tracing cfg with
  | Some n => match tget n svs with Some i => i | None => ITrace None end
  | None => ITrace None
  end.
Definition cfg_dev (svs : list (text * sinst)) (cfg : plugin_cfg) : list action :=
  match pc_identifier cfg with Some h => [dev_action (cfg_tracing svs cfg) h] | None => [] end.
Inductive served (E : env) (cfg : plugin_cfg) (svs : list (text * sinst)) : blueprint -> Prop :=
| sv_set s bp :
    In s (pc_sets cfg) -> compile_set E svs (cfg_rsrc E cfg) s = Some bp ->
    served E cfg svs (mkBp (bp_name bp) (bp_preds bp) (bp_actions bp ++ cfg_dev svs cfg))
| sv_dev h : pc_identifier cfg = Some h -> served E cfg svs (mkBp (tx "kuadrant.devMode") [] (cfg_dev svs cfg)).

Lemma tget_tset_cases {V} k k' (v : V) l x : tget k' (tset k v l) = Some x -> x = v \/ tget k' l = Some x.
Proof.
  destruct (text_eq_dec k' k) as [->|Hne].
  - rewrite (aget_aset_same text_eqb) by apply text_eqb_eq. intros [= ->]. now left.
  - rewrite (aget_aset_other text_eqb) by (exact Hne || apply text_eqb_eq). now right.
Qed.
Lemma ancestor_In h ix k v : ancestor h ix = Some (k, v) -> In (k, v) ix.
Proof.
  revert k v. induction ix as [|[k1 v1] ix IH]; intros k v; simpl; [discriminate|].
  destruct (ancestor h ix) as [[k2 v2]|].
  - destruct (_ && _); intros [= <- <-]; [now left|right; now apply IH].
  - destruct (starts_with k1 h); [intros [= <- <-]; now left|discriminate].
Qed.
Lemma In_tset {V} k (v : V) l x : In x (tset k v l) -> x = (k, v) \/ In x l.
Proof.
  induction l as [|[k1 v1] l IH]; simpl; [intros [<-|[]]; now left|].
  destruct (text_eqb k k1); simpl; intros [<-|H]; auto. apply IH in H as [H|H]; auto.
Qed.

Lemma idx_add_In bp hosts : forall ix k l b, In (k, l) (fold_left (idx_add bp) hosts ix) -> In b l ->
  b = bp \/ exists l', In (k, l') ix /\ In b l'.
Proof.
  induction hosts as [|h hosts IH]; intros ix k l b; simpl; [eauto|]. intros H Hb.
  destruct (IH _ _ _ _ H Hb) as [->|(l' & H' & Hb')]; [now left|]. unfold idx_add in H'. cbv zeta in H'.
  apply In_tset in H' as [[= -> ->]|H']; [|eauto].
  destruct (tget (reverse_subdomain (to_lower h)) ix) as [l0|] eqn:Hg.
  - apply in_app_or in Hb' as [Hb'|[<-|[]]]; [|now left]. apply aget_In in Hg; [eauto|apply text_eqb_eq].
  - destruct Hb' as [<-|[]]. now left.
Qed.
Lemma add_sets_In E svs rd dev sets : forall ix0 ix k l b,
  fold_left (add_set E svs rd dev) sets (Some ix0) = Some ix -> In (k, l) ix -> In b l ->
  (exists l', In (k, l') ix0 /\ In b l') \/
  exists s bp, In s sets /\ compile_set E svs rd s = Some bp /\
    b = mkBp (bp_name bp) (bp_preds bp) (bp_actions bp ++ match dev with Some a => [a] | None => [] end).
Proof.
  induction sets as [|s sets IH]; intros ix0 ix k l b; cbn [fold_left].
  - intros [= <-] H1 H2. left. eauto.
  - unfold add_set at 2. destruct (compile_set E svs rd s) as [bp|] eqn:Hc.
    + intros H H1 H2. destruct (IH _ _ _ _ _ H H1 H2) as [(l' & A & B)|(s' & bp' & A & B & C)].
      * apply idx_add_In with (b := b) in A as [->|A]; [|now left|exact B]. right. exists s, bp. repeat split; auto. now left.
      * right. exists s', bp'. repeat split; auto. now right.
    + intros H. exfalso. clear -H. induction sets as [|s' sets IH]; simpl in H; [discriminate|auto].
Qed.
Lemma try_from_served E cfg fa : try_from E cfg = Some fa ->
  exists svs, cfg_svs cfg = Some svs /\
  (forall k l b, In (k, l) (fa_index fa) -> In b l -> served E cfg svs b) /\
  (forall b, fa_fallback fa = Some b -> served E cfg svs b).
Proof.
  unfold try_from. fold (cfg_svs cfg). destruct (cfg_svs cfg) as [svs|] eqn:Hs; [|discriminate]. cbv zeta.
  fold (cfg_rd E cfg). fold (cfg_rsrc E cfg). fold (cfg_tracing svs cfg).
  destruct (fold_left _ _ _) as [ix|] eqn:Hf; [|discriminate]. intros [= <-]. exists svs. split; [reflexivity|]. cbn [fa_index fa_fallback]. split.
  - intros k l b H1 H2. destruct (add_sets_In _ _ _ _ _ _ _ _ _ _ Hf H1 H2) as [(l' & [] & _)|(s & bp & A & B & ->)].
    replace (match option_map (dev_action (cfg_tracing svs cfg)) (pc_identifier cfg) with Some a => [a] | None => [] end) with (cfg_dev svs cfg).
    + now apply (sv_set E cfg svs s bp).
    + unfold cfg_dev. now destruct (pc_identifier cfg).
  - intros b Hb. destruct (pc_identifier cfg) as [h|] eqn:Hh; [|discriminate]. simpl in Hb. injection Hb as <-.
    replace [dev_action (cfg_tracing svs cfg) h] with (cfg_dev svs cfg) by (unfold cfg_dev; now rewrite Hh). now apply (sv_dev E cfg svs h).
Qed.

Lemma first_match_In E l : forall c b c', first_match E l c = (Some (Some b), c') -> In b l.
Proof.
  induction l as [|b0 l IH]; intros c b c'; simpl; [discriminate|].
  destruct (route_match E (bp_preds b0) c) as [[|[|]|] c1]; try discriminate.
  - intros [= <- <-]. now left.
  - intros H. right. eauto.
Qed.
Lemma select_served E cfg fa c b c' : try_from E cfg = Some fa -> select E fa c = (Some (Some b), c') ->
  exists svs, cfg_svs cfg = Some svs /\ served E cfg svs b.
Proof.
  intros H. apply try_from_served in H as (svs & Hs & H1 & H2). exists svs. split; [exact Hs|]. revert H. unfold select.
  destruct (get_hostname E c) as [[h|] c1]; [|discriminate].
  destruct (ancestor (reverse_subdomain h) (fa_index fa)) as [[k l]|] eqn:Ha; [|discriminate]. apply ancestor_In in Ha.
  destruct (first_match E l c1) as [[[b0|]|] c2] eqn:Hm; try discriminate.
  - intros [= <- <-]. apply first_match_In in Hm. eauto.
  - intros [= Hf <-]. eauto.
Qed.

Lemma tu_not_number i : ~ below (nat_text i) tu.
Proof.
  intros [H|(r & H)].
  - pose proof (nat_text_digits i) as Hd. rewrite <- H in Hd. vm_compute in Hd. discriminate.
  - pose proof (nat_text_digits i) as Hd. pose proof (nat_text_nonempty i) as Hn. destruct (nat_text i) as [|x t]; [easy|].
    vm_compute in H. injection H as <- _. simpl in Hd. discriminate.
Qed.
Lemma dev_not_number i : ~ below (nat_text i) (tx "kuadrant.devMode").
Proof.
  intros [H|(r & H)].
  - pose proof (nat_text_digits i) as Hd. rewrite <- H in Hd. vm_compute in Hd. discriminate.
  - pose proof (nat_text_digits i) as Hd. pose proof (nat_text_nonempty i) as Hn. destruct (nat_text i) as [|x t]; [easy|].
    cbn in H. injection H as <- _. simpl in Hd. discriminate.
Qed.
Lemma dev_ids tr h : a_ids (dev_action tr h) = [tx "kuadrant.devMode"].
Proof. now destruct tr. Qed.
Lemma served_ids E cfg svs b : served E cfg svs b -> NoDup (b_ids (bp_actions b)) /\ ~ In tu (b_ids (bp_actions b)).
Proof.
  assert (D : forall x, In x (b_ids (cfg_dev svs cfg)) -> x = tx "kuadrant.devMode").
  { unfold cfg_dev. destruct (pc_identifier cfg); cbn [b_ids flat_map]; [|easy]. rewrite dev_ids. intros x [<-|[]]. reflexivity. }
  assert (N : NoDup (b_ids (cfg_dev svs cfg))).
  { unfold cfg_dev. destruct (pc_identifier cfg); [|constructor]. cbn [b_ids flat_map]. rewrite dev_ids, app_nil_r. constructor; [easy|constructor]. }
  intros [s bp _ H|h Hh]; cbn [bp_actions].
  - apply compile_set_ids in H as [H1 H2]. unfold b_ids. rewrite flat_map_app. split.
    + apply NoDup_app_intro; auto. intros x A B. apply D in B. subst x. apply H2 in A as (i & A). now apply dev_not_number in A.
    + intros Hi. apply in_app_or in Hi as [Hi|Hi]; [apply H2 in Hi as (i & Hi); now apply tu_not_number in Hi|]. apply D in Hi. discriminate.
  - split; [exact N|]. intros Hi. apply D in Hi. discriminate.
Qed.

Record built (E : env) (fa : factory) (c : ctx) (b : blueprint) (p : pipe) : Prop := {
  bt_sel : exists c1, select E fa c = (Some (Some b), c1);
  bt_ids : idls (p_queue p) = b_ids (bp_actions b);
  bt_wf : Forall wf_q (p_queue p);
  bt_dl : dls (p_queue p) = b_dl (bp_actions b);
  bt_def : p_def p = [];
  bt_done : p_done p = [];
  bt_term : p_term p = false }.
Lemma build_shape E fa c p : build E fa c = BOk p -> exists b, built E fa c b p.
Proof.
  unfold build. destruct (select E fa c) as [[[b|]|] c1] eqn:Hs; try discriminate. cbv zeta.
  destruct (to_tasks E _ b _) as [[[ts tds] c3]|] eqn:Ht; [|discriminate].
  destruct ts as [|t ts]; [discriminate|]. intros [= <-]. exists b. apply actions_tasks_shape in Ht as (A1 & A2 & A3).
  constructor; eauto.
Qed.
