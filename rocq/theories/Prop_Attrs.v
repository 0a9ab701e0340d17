(** C24, C25, C26, C30 (per context), C33. *)
From Coq Require Import String List NArith ZArith Bool Lia.
From Verif Require Import Base Value Headers AttrPath Ctx CelProps CelEval P_Frame Demo.
Import ListNotations.
Open Scope list_scope.

(** ** Operations on the attributes of a request, as the filter performs them *)
Inductive attr_op :=
| OpRead (p : path)                       (* read one attribute *)
| OpEval (ex : expr) (vs : vars)          (* evaluate an expression or predicate *)
| OpRoute (ps : list expr)                (* test route predicates *)
| OpReqId                                 (* need the request id *)
| OpEvent (e : ev)                        (* anything happens: the host may now answer differently *)
| OpWrite (p : path) (v : text)           (* write an attribute *)
| OpWriteMap (m : maptype) (h : headers). (* write a header map *)

Definition attr_step (E : env) (c : ctx) (o : attr_op) : ctx :=
  match o with
  | OpRead p => snd (read_attr E p c)
  | OpEval ex vs => snd (eval_in E ex vs c)
  | OpRoute ps => snd (route_match E ps c)
  | OpReqId => snd (request_id E c)
  | OpEvent e => emit e c
  | OpWrite p v => snd (set_attribute E p v c)
  | OpWriteMap m h => snd (set_headers E m h c)
  end.
(** the attribute an operation writes *)
Definition writes (o : attr_op) (p : path) : Prop :=
  match o with
  | OpWrite q _ => path_show q = path_show p
  | OpWriteMap m _ => path_show (target_path m) = path_show p
  | _ => False
  end.

Lemma attr_step_keeps E c o p v :
  ~ writes o p -> cache_get p c = Some v -> cache_get p (attr_step E c o) = Some v.
Proof.
  assert (Put : forall q w c0, path_show q <> path_show p -> cache_get p (cache_put q w c0) = cache_get p c0).
  { intros q w c0 H. unfold cache_get, cache_put. simpl. apply aget_aset_other; [apply text_eqb_eq|].
    intros H2. now apply H. }
  destruct o; simpl; intros Hw Hc.
  - destruct (read_attr E p0 c) as [r c1] eqn:H. apply read_attr_ext in H. eapply ext_cached; eauto.
  - destruct (eval_in E ex vs c) as [[r vs1] c1] eqn:H. apply eval_in_ext in H. eapply ext_cached; eauto.
  - destruct (route_match E ps c) as [r c1] eqn:H. apply route_match_ext in H. eapply ext_cached; eauto.
  - destruct (request_id E c) as [r c1] eqn:H. apply request_id_xrid in H as [H _]. eapply xrid_cached; eauto.
  - exact Hc.
  - unfold set_attribute. destruct (h_setprop E _ _ _); simpl; [rewrite Put by exact Hw| |]; exact Hc.
  - unfold set_headers. destruct (h_setmap E _ _ _); simpl; [rewrite Put by exact Hw| |]; try exact Hc;
      destruct m; exact Hc.
Qed.
Lemma attr_steps_keep E ops : forall c p v,
  Forall (fun o => ~ writes o p) ops -> cache_get p c = Some v ->
  cache_get p (fold_left (attr_step E) ops c) = Some v.
Proof.
  induction ops as [|o ops IH]; intros c p v Hf Hc; simpl; [exact Hc|].
  inversion Hf; subst. apply IH; [assumption|]. now apply attr_step_keeps.
Qed.
Lemma read_cached E p c v : cache_get p c = Some v -> read_attr E p c = (RAvail v, c).
Proof. intros H. unfold read_attr. now rewrite H. Qed.

(** ** C25: whatever the host answers, and whatever happens in between *)
Theorem C25_reads_are_stable : forall E p c v c1 ops,
  read_attr E p c = (RAvail v, c1) ->
  Forall (fun o => ~ writes o p) ops ->
  fst (read_attr E p (fold_left (attr_step E) ops c1)) = RAvail v.
Proof.
  intros E p c v c1 ops H Hf.
  assert (Hc : cache_get p c1 = Some v).
  { unfold read_attr in H. destruct (cache_get p c) eqn:Hg; [injection H as -> <-; exact Hg|].
    destruct (fetch E (c_log c) p); try discriminate. injection H as -> <-.
    unfold cache_get, cache_put. simpl. apply aget_aset_same. apply text_eqb_eq. }
  now rewrite (read_cached E p _ v (attr_steps_keep E ops c1 p v Hf Hc)).
Qed.
Print Assumptions C25_reads_are_stable.

(** the host changes its mind after every event; the filter keeps the first answer *)
Example C25_case :
  let E := e_prop E0 (fun l _ => HOk (Some (nat_text (length l)))) in
  let p := [tx "request"; tx "path"] in
  let c1 := snd (read_attr E p (ctx0 [])) in
  let ops := [OpEvent EvReqHeaders; OpEval (expr_of (ASelect (AIdent (tx "request")) (tx "host") false)) []; OpReqId;
              OpWriteMap MReq []] in
  fst (read_attr E p (fold_left (attr_step E) ops c1)) = RAvail (CBytes (Some (tx "0"))) /\
  h_prop E (c_log (fold_left (attr_step E) ops c1)) p = HOk (Some (tx "2")).
Proof. vm_compute. easy. Qed.

(** ** C24 *)
Theorem C24_read_your_writes : forall E p v c c1 ops,
  set_attribute E p v c = (RAvail tt, c1) -> Forall (fun o => ~ writes o p) ops ->
  fst (read_attr E p (fold_left (attr_step E) ops c1)) = RAvail (CBytes (Some v)).
Proof.
  intros E p v c c1 ops H Hf.
  assert (Hc : cache_get p c1 = Some (CBytes (Some v))).
  { unfold set_attribute in H. destruct (h_setprop E _ _ _); try discriminate. injection H as <-.
    unfold cache_get, cache_put. simpl. apply aget_aset_same. apply text_eqb_eq. }
  now rewrite (read_cached E p _ _ (attr_steps_keep E ops c1 p _ Hf Hc)).
Qed.
Print Assumptions C24_read_your_writes.

Theorem C24_read_your_header_writes : forall E m h c c1 ops,
  set_headers E m h c = (RAvail tt, c1) -> Forall (fun o => ~ writes o (target_path m)) ops ->
  fst (read_headers E (target_path m) (fold_left (attr_step E) ops c1)) = RAvail h.
Proof.
  intros E m h c c1 ops H Hf.
  assert (Hc : cache_get (target_path m) c1 = Some (CHeaders h)).
  { unfold set_headers in H. destruct (h_setmap E _ _ _); try (destruct m; discriminate).
    injection H as <-. unfold cache_get, cache_put. simpl. apply aget_aset_same. apply text_eqb_eq. }
  unfold read_headers. now rewrite (read_cached E _ _ _ (attr_steps_keep E ops c1 _ _ Hf Hc)).
Qed.
Print Assumptions C24_read_your_header_writes.

(** A write the host refuses leaves what is read unchanged. *)
Theorem C24_failed_write_changes_nothing : forall E p v c r c1,
  set_attribute E p v c = (r, c1) -> r <> RAvail tt -> c_cache c1 = c_cache c.
Proof.
  intros E p v c r c1. unfold set_attribute. destruct (h_setprop E _ _ _) as [[]| |]; intros [= <- <-] H; simpl; easy.
Qed.
Print Assumptions C24_failed_write_changes_nothing.
Theorem C24_failed_header_write_changes_nothing : forall E m h c r c1,
  set_headers E m h c = (r, c1) -> r <> RAvail tt -> c_cache c1 = c_cache c.
Proof.
  intros E m h c r c1. unfold set_headers. destruct (h_setmap E _ _ _) as [[]| |], m; intros [= <- <-] H; simpl; easy.
Qed.
Print Assumptions C24_failed_header_write_changes_nothing.

Example C24_case :
  let E := e_map E0 (fun _ _ => HOk [(tx "a", tx "1")]) in
  let c1 := snd (read_headers E p_req_headers (ctx0 [])) in
  let c2 := snd (set_headers E MReq [(tx "b", tx "2")] c1) in
  fst (read_headers E p_req_headers (attr_step E c2 (OpEvent EvRespHeaders))) = RAvail [(tx "b", tx "2")].
Proof. reflexivity. Qed.

(** ** C26 *)
(** what the host says about an attribute at a moment, as seen by a reader *)
Definition host_answer (E : env) (l : log) (p : path) : rd cached :=
  match fetch E l p with HOk v => RAvail v | HNotAvail => RPending | HErr => RErr end.

Theorem C26_unavailable_reads_are_retried : forall E p c r c1,
  read_attr E p c = (r, c1) -> (forall v, r <> RAvail v) ->
  c1 = c /\ forall es, fst (read_attr E p (fold_left (fun c e => emit e c) es c1)) =
                       host_answer E (rev es ++ c_log c) p.
Proof.
  intros E p c r c1 H Hr. unfold read_attr in H.
  destruct (cache_get p c) as [v|] eqn:Hg; [exfalso; injection H as <- <-; now apply (Hr v)|].
  assert (c1 = c) as ->.
  { destruct (fetch E (c_log c) p) as [v| |]; injection H as <- <-; [exfalso; now apply (Hr v)|easy|easy]. }
  split; [reflexivity|]. intros es.
  assert (K : forall es c, c_log (fold_left (fun c e => emit e c) es c) = rev es ++ c_log c /\
                           c_cache (fold_left (fun c e => emit e c) es c) = c_cache c).
  { clear. induction es as [|e es IH]; intro c; simpl; [now split|].
    destruct (IH (emit e c)) as [-> ->]. simpl. now rewrite <- app_assoc. }
  destruct (K es c) as [K1 K2]. unfold read_attr, cache_get. rewrite K2. unfold cache_get in Hg. rewrite Hg, K1.
  unfold host_answer. now destruct (fetch E (rev es ++ c_log c) p).
Qed.
Print Assumptions C26_unavailable_reads_are_retried.

(** The same while fetching attributes for an expression: nothing is recorded for it. *)
Theorem C26_populate_retries : forall E ps c p,
  cache_get p c = None ->
  (forall v, fetch E (c_log c) p <> HOk v) ->
  (forall q, In q ps -> path_show q = path_show p -> q = p) ->
  cache_get p (ensure_attributes E ps c) = None.
Proof.
  intros E ps. unfold ensure_attributes.
  induction ps as [|q ps IH]; intros c p Hg Hf Hinj; simpl; [exact Hg|].
  assert (Hl : c_log (populate E c q) = c_log c) by (apply ext_log, populate_ext).
  apply IH; [|rewrite Hl; exact Hf|intros q' Hq; apply Hinj; now right].
  unfold populate. destruct (cache_get q c) eqn:Hq; [exact Hg|].
  destruct (fetch E (c_log c) q) as [v| |] eqn:Hfq; try exact Hg.
  unfold cache_get, cache_put. simpl.
  destruct (text_eq_dec (path_show p) (path_show q)) as [He|He].
  - symmetry in He. apply Hinj in He; [|now left]. subst q. exfalso. now apply (Hf v).
  - rewrite aget_aset_other; [exact Hg|apply text_eqb_eq|exact He].
Qed.
Print Assumptions C26_populate_retries.

Example C26_case :
  let E := e_map E0 (fun l m => match l with [] => HNotAvail | _ => HOk [(tx "a", tx "1")] end) in
  fst (read_headers E p_resp_headers (ctx0 [])) = RPending /\
  fst (read_headers E p_resp_headers (emit EvRespHeaders (snd (read_headers E p_resp_headers (ctx0 []))))) = RAvail [(tx "a", tx "1")].
Proof. vm_compute. easy. Qed.
