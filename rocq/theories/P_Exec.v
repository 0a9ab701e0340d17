(** The executor as a small-step relation, and its invariant principle. *)
From Coq Require Import String List NArith Bool Lia.
From Verif Require Import Base Value Headers AttrPath Ctx CelProps CelEval Sse Body Tasks Exec P_Frame P_Apply.
Import ListNotations.
Open Scope list_scope.

(** What follows a task run from the queue, [ts] the rest of the pass *)
Definition run_next (E : env) (t : task) (ts : list task) (p : pipe) (o : outcome) (c : ctx) : list task * pipe :=
  let p1 := p_with_ctx p c in
  match o with
  | ODone => (ts, p_with_done p1 (t_id t :: p_done p1))
  | ODeferred tok t' => (ts, def_insert tok t' p1)
  | ORequeued l => (ts, p_with_queue p1 (p_queue p1 ++ l))
  | OFailed => (ts, p1)
  | OTerminate fin => ([], mkPipe (drop_tasks (p_queue p1 ++ ts) (run_terminal E fin (p_ctx p1))) [] (p_def p1) (p_done p1) (p_td p1) true)
  end.
(** What follows a response being handed to its task *)
Definition handle_next (E : env) (t : task) (p : pipe) (o : outcome) (c : ctx) : pipe :=
  let p1 := p_with_ctx p c in
  match o with
  | ODone => p_with_done p1 (t_id t :: p_done p1)
  | ORequeued l => mkPipe (emit (EvDone (t_id t)) (p_ctx p1)) (l ++ p_queue p1) (p_def p1) (t_id t :: p_done p1) (p_td p1) (p_term p1)
  | ODeferred tok' t' => def_insert tok' t' p1
  | OFailed => p1
  | OTerminate fin => mkPipe (drop_tasks (p_queue p1) (run_terminal E fin (p_ctx p1))) [] (p_def p1) (p_done p1) (p_td p1) true
  end.

Definition p_emit (e : ev) (p : pipe) : pipe := p_with_ctx p (emit e (p_ctx p)).
Definition p_with_td (p : pipe) l := mkPipe (p_ctx p) (p_queue p) (p_def p) (p_done p) l (p_term p).

(** A terminated pipeline has given up its calls, once its teardown ran *)
Definition settled (p : pipe) : Prop := p_term p = true -> Forall is_noop (map snd (p_def p)).

Inductive estep (E : env) : list task -> pipe -> list task -> pipe -> Prop :=
| es_start p : settled p -> estep E [] p (p_queue p) (p_with_queue p [])
| es_block t ts p : blocked (p_done p) t = true ->
    estep E (t :: ts) p ts (p_with_queue p (p_queue p ++ [t]))
| es_run t ts p o c ts' p' : blocked (p_done p) t = false -> step E t (p_ctx p) = (o, c) ->
    run_next E t ts p o c = (ts', p') -> estep E (t :: ts) p ts' p'
| es_unknown tok st sz p : settled p -> nget tok (p_def p) = None -> estep E [] p [] (p_emit (EvGrpcResp tok st sz) p)
| es_handle tok st sz t p o c : settled p -> nget tok (p_def p) = Some t ->
    step E t (emit (EvHandle tok (t_id t)) (set_grpc st sz (emit (EvGrpcResp tok st sz) (p_ctx p)))) = (o, c) ->
    estep E [] p []
      (handle_next E t (mkPipe c (p_queue p) (ndel tok (p_def p)) (p_done p) (p_td p) (p_term p)) o c)
| es_repl p : p_queue p = [] -> p_term p = true \/ p_def p = [] -> estep E [] p [] (replace_deferred p)
| es_td a rest p : p_queue p = [] -> Forall is_noop (map snd (p_def p)) -> p_td p = a :: rest ->
    estep E [] p [] (td_step E (p_with_td p rest) a).

Inductive estar (E : env) : list task -> pipe -> list task -> pipe -> Prop :=
| st_refl ts p : estar E ts p ts p
| st_step ts p ts1 p1 ts2 p2 : estep E ts p ts1 p1 -> estar E ts1 p1 ts2 p2 -> estar E ts p ts2 p2.

Lemma estar_trans E ts p ts1 p1 ts2 p2 : estar E ts p ts1 p1 -> estar E ts1 p1 ts2 p2 -> estar E ts p ts2 p2.
Proof. induction 1; intros H2; [exact H2|]. econstructor; eauto. Qed.
Lemma estar_one E ts p ts1 p1 : estep E ts p ts1 p1 -> estar E ts p ts1 p1.
Proof. intros H. econstructor; [exact H|constructor]. Qed.

Lemma process_star E ts : forall p b p', process E ts p = (b, p') ->
  estar E ts p [] p' /\ (b = true -> p_term p' = true /\ p_queue p' = []).
Proof.
  induction ts as [|t ts IH]; intros p b p'; simpl.
  - intros [= <- <-]. split; [constructor|discriminate].
  - destruct (blocked (p_done p) t) eqn:Hb.
    + intros H. apply IH in H as [H1 H2]. split; [|exact H2].
      econstructor; [now apply es_block|exact H1].
    + destruct (step E t (p_ctx p)) as [o c] eqn:Hs.
      pose proof (es_run E t ts p o c _ _ Hb Hs (surjective_pairing _)) as Hr. revert Hr.
      unfold run_next. destruct o; simpl; intros Hr H;
        try (apply IH in H as [H1 H2]; split; [econstructor; [exact Hr|exact H1]|exact H2]).
      injection H as <- <-. split; [apply estar_one; exact Hr|]. intros _. now split.
Qed.

Lemma td_step_noop E p a : Forall is_noop (map snd (p_def p)) -> Forall is_noop (map snd (p_def (td_step E p a))).
Proof.
  intros Hn. unfold td_step. destruct (td_exec _ _ _) as [[tok|] c]; simpl; [|exact Hn].
  clear - Hn. revert Hn. unfold nset.
  induction (p_def p) as [|[k t] d IH]; simpl; intros Hn.
  - now repeat constructor.
  - inversion Hn; subst. destruct (N.eqb tok k); simpl; constructor; auto. simpl. auto.
Qed.

Lemma td_fold_star E l : forall p, p_queue p = [] -> Forall is_noop (map snd (p_def p)) -> p_td p = l ->
  estar E [] p [] (fold_left (td_step E) l (p_with_td p [])) /\
  Forall is_noop (map snd (p_def (fold_left (td_step E) l (p_with_td p [])))).
Proof.
  induction l as [|a l IH]; intros p Hq Hn Ht; simpl.
  - destruct p; simpl in *; subst. split; [constructor|exact Hn].
  - assert (Hc : td_step E (p_with_td p []) a = p_with_td (td_step E (p_with_td p l) a) []).
    { unfold td_step. simpl. destruct (td_exec E a (emit EvTeardown (p_ctx p))) as [[tok|] c]; simpl; [|reflexivity].
      unfold def_insert, p_with_td. simpl. reflexivity. }
    rewrite Hc. destruct (IH (td_step E (p_with_td p l) a)) as [H1 H2].
    + unfold td_step. simpl. destruct (td_exec _ _ _) as [[tok|] c]; exact Hq.
    + apply td_step_noop. exact Hn.
    + unfold td_step. simpl. destruct (td_exec _ _ _) as [[tok|] c]; reflexivity.
    + split; [|exact H2]. econstructor; [apply es_td; [exact Hq|exact Hn|exact Ht]|exact H1].
Qed.

Lemma teardown_star E p : p_queue p = [] -> p_term p = true \/ p_def p = [] ->
  estar E [] p [] (execute_teardown E p) /\ Forall is_noop (map snd (p_def (execute_teardown E p))).
Proof.
  intros Hq Ht. unfold execute_teardown.
  destruct (td_fold_star E (p_td (replace_deferred p)) (replace_deferred p)) as [H1 H2]; auto.
  - simpl. rewrite map_map. apply Forall_forall. intros t Hi. apply in_map_iff in Hi as (x & <- & _). exact I.
  - split; [|exact H2]. econstructor; [now apply es_repl|exact H1].
Qed.

(** A pass does not change whether the pipeline was terminated, unless it terminates *)
Lemma process_term E ts : forall p p', process E ts p = (false, p') -> p_term p' = p_term p.
Proof.
  induction ts as [|t ts IH]; intros p p'; simpl; [now intros [= <-]|].
  destruct (blocked (p_done p) t); [intros H; now apply IH in H|].
  destruct (step E t (p_ctx p)) as [o c]. destruct o; try (intros H; now apply IH in H). discriminate.
Qed.
Lemma process_def_term E ts : forall p p', p_term p = true -> ts = [] -> process E ts p = (false, p') -> p' = p.
Proof. intros p p' _ ->. simpl. now intros [= <-]. Qed.

(** [live p]: a terminated pipeline has nothing queued and only abandoned calls *)
Definition live (p : pipe) : Prop := settled p /\ (p_term p = true -> p_queue p = []).

Lemma eval_star E p : live p -> estar E [] p [] (eval_pipe E p) /\ live (eval_pipe E p).
Proof.
  intros [Hs Hq]. unfold eval_pipe. destruct (process E (p_queue p) (p_with_queue p [])) as [b p1] eqn:Hp.
  pose proof (process_star _ _ _ _ _ Hp) as [H1 H2].
  assert (H0 : estar E [] p [] p1) by (econstructor; [apply es_start; exact Hs|exact H1]).
  assert (K : forall p1, estar E [] p [] p1 -> p_queue p1 = [] -> p_term p1 = true \/ p_def p1 = [] ->
    estar E [] p [] (execute_teardown E p1) /\ live (execute_teardown E p1)).
  { intros p2 Hst Hq2 Ht. destruct (teardown_star E p2 Hq2 Ht) as [H3 H4]. split; [eapply estar_trans; eauto|].
    split; [intros _; exact H4|]. intros _. clear - Hq2. unfold execute_teardown.
    assert (Kq : forall l p, p_queue (fold_left (td_step E) l p) = p_queue p).
    { induction l as [|a l IH]; intros p; simpl; [reflexivity|]. rewrite IH. unfold td_step. now destruct (td_exec _ _ _) as [[tok|] c]. }
    rewrite Kq. exact Hq2. }
  destruct b.
  - destruct (H2 eq_refl) as [Ht Hq1]. apply K; auto.
  - assert (L1 : live p1).
    { split.
      - intros Ht. pose proof (process_term _ _ _ _ Hp) as Hpt. simpl in Hpt. rewrite Hpt in Ht.
        apply process_def_term in Hp; [|exact Ht|now apply Hq]. subst p1. now apply Hs.
      - intros Ht. pose proof (process_term _ _ _ _ Hp) as Hpt. simpl in Hpt. rewrite Hpt in Ht.
        apply process_def_term in Hp; [|exact Ht|now apply Hq]. now subst p1. }
    destruct (p_queue p1) eqn:Hq1; [|split; assumption]. destruct (p_def p1) eqn:Hd; [|split; assumption].
    destruct (p_td p1); [split; assumption|]. apply K; auto.
Qed.

Lemma nget_In {V} k (v : V) d : nget k d = Some v -> In (k, v) d.
Proof.
  unfold nget. induction d as [|[k' v'] d IH]; simpl; [discriminate|].
  destruct (N.eqb_spec k k') as [->|]; [intros [= ->]; now left|]. intros H. right. now apply IH.
Qed.
Lemma ndel_incl {V} k (d : list (N * V)) x : In x (ndel k d) -> In x d.
Proof.
  unfold ndel. induction d as [|[k' v'] d IH]; simpl; [easy|].
  destruct (N.eqb k k'); simpl; intros H; [now right; apply IH|]. destruct H as [H|H]; [now left|right; now apply IH].
Qed.
Lemma ndel_noop k d : Forall is_noop (map snd d) -> Forall is_noop (map snd (ndel k d)).
Proof.
  rewrite !Forall_forall. intros H t Hi. apply in_map_iff in Hi as (x & <- & Hi). apply ndel_incl in Hi.
  apply H. now apply in_map.
Qed.

Lemma digest_star E tok st sz p : live p ->
  let p' := digest_pipe E tok st sz (p_emit (EvGrpcResp tok st sz) p) in
  estar E [] p [] p' /\ live p'.
Proof.
  intros [Hs Hq]. cbv zeta. unfold digest_pipe. simpl. destruct (nget tok (p_def p)) as [t|] eqn:Hn.
  2:{ destruct (eval_star E (p_emit (EvGrpcResp tok st sz) p)) as [H1 H2]; [now split|].
      split; [|exact H2]. econstructor; [apply es_unknown; [exact Hs|exact Hn]|exact H1]. }
  destruct (step E t _) as [o c] eqn:Hst.
  pose proof (es_handle E tok st sz t p o c Hs Hn Hst) as Hh.
  assert (Ko : p_term p = true -> o = ODone).
  { intros Ht. specialize (Hs Ht). rewrite Forall_forall in Hs. apply nget_In in Hn.
    specialize (Hs t). assert (Hi : In t (map snd (p_def p))) by (apply in_map_iff; now exists (tok, t)).
    specialize (Hs Hi). destruct t; try easy. unfold step in Hst. simpl in Hst. congruence. }
  assert (Kd : p_term p = true -> Forall is_noop (map snd (ndel tok (p_def p)))).
  { intros Ht. apply ndel_noop. now apply Hs. }
  assert (K : forall q, estep E [] p [] q -> live q -> estar E [] p [] (eval_pipe E q) /\ live (eval_pipe E q)).
  { intros q Hq1 Hq2. destruct (eval_star E q Hq2) as [H1 H2]. split; [|exact H2]. econstructor; eauto. }
  destruct o; simpl in *.
  - apply K; [exact Hh|]. split; simpl; auto.
  - apply K; [exact Hh|]. split; intros Ht; simpl in *; now apply Ko in Ht.
  - apply K; [exact Hh|]. split; intros Ht; simpl in *; now apply Ko in Ht.
  - apply K; [exact Hh|]. split; intros Ht; simpl in *; now apply Ko in Ht.
  - match type of Hh with estep _ _ _ _ ?q => set (q0 := q) in * end.
    destruct (teardown_star E q0 eq_refl (or_introl eq_refl)) as [H1 H2].
    destruct (eval_star E (execute_teardown E q0)) as [H3 H4].
    { split; [intros _; exact H2|]. intros _. unfold execute_teardown.
      assert (Kq : forall l p, p_queue (fold_left (td_step E) l p) = p_queue p).
      { clear. induction l as [|a l IH]; intros p; simpl; [reflexivity|]. rewrite IH. unfold td_step. now destruct (td_exec _ _ _) as [[tok|] c]. }
      rewrite Kq. reflexivity. }
    split; [|exact H4]. econstructor; [exact Hh|]. eapply estar_trans; eauto.
Qed.

Lemma estar_inv E (I : list task -> pipe -> Prop) :
  (forall ts p ts' p', estep E ts p ts' p' -> I ts p -> I ts' p') ->
  forall ts p ts' p', estar E ts p ts' p' -> I ts p -> I ts' p'.
Proof. intros HI ts p ts' p'. induction 1; eauto. Qed.
