(** C03, C45, C48, C90: what holds of claims that do not hold as they stand. *)
From Coq Require Import String List NArith ZArith Bool Lia Arith.
From Verif Require Import Base Value Headers AttrPath Ctx CelProps CelEval Sse Body Tasks Exec Config Legacy Blueprint Factory Filter
  P_Frame P_Utf8 P_Sse P_Apply P_Exec P_Run P_Inv P_Ids P_Plan P_Deps P_Order P_Term P_Bar P_Cfg P_Hist P_Grow P_Wake P_Fail P_Eff P_Scope Demo DemoCfg
  Prop_Sse Prop_Body Prop_Order Prop_Term Prop_Guard Prop_Wake Prop_Fail Prop_Know Prop_Eff Prop_Scope Prop_Reply Prop_Pass Prop_Call.
Import ListNotations.
Open Scope list_scope.

(** * C45 *)
Lemma bad_chunk c p : ~ good c -> sse_parse c p = PErr p.
Proof. unfold good, sse_parse. destruct (utf8_valid c); [now intros []|reflexivity]. Qed.
Lemma feed_all_good chunks : forall p r, feed_all p chunks = Some r -> Forall good chunks.
Proof.
  induction chunks as [|c cs IH]; intros p r H; [constructor|]. cbn [feed_all] in H. unfold good at 1. destruct (utf8_valid c) eqn:Hc.
  - constructor; [exact Hc|]. destruct (sse_parse c p) as [es p1| |]; try discriminate. destruct (feed_all p1 cs) as [[es' p2]|] eqn:Hf; [|discriminate]. eapply IH; eauto.
  - rewrite (bad_chunk c p) in H by (unfold good; congruence). discriminate.
Qed.
(** Streams cut between characters are read like the whole stream, and only those: cutting
    inside a character is an error.
    Missing for the full claim: cuts inside a character, see the refutation. *)
Theorem C45_cuts_between_characters_partial : forall chunks p, good (concat chunks) -> chunks <> [] ->
  ((exists r, feed_all p chunks = Some r) <-> Forall good chunks) /\
  (Forall good chunks -> exists es p', feed_all p chunks = Some (es, p') /\ sse_parse (concat chunks) p = POk es p').
Proof.
  intros chunks p _ Hne. split; [split|].
  - intros (r & Hr). eapply feed_all_good; eauto.
  - intros Hg. destruct (C41_chunking_does_not_matter_partial chunks p Hg Hne) as (es & p' & H & _). eauto.
  - intros Hg. exact (C41_chunking_does_not_matter_partial chunks p Hg Hne).
Qed.
Print Assumptions C45_cuts_between_characters_partial.
(** a stream with a character of two bytes, cut around it *)
Definition cut45 : list text := [tx "data: "; [Ascii.ascii_of_N 195; Ascii.ascii_of_N 169]; [LF; LF]].
Example ex45 : good (concat cut45) /\ Forall good cut45 /\ exists e p, feed_all sparser0 cut45 = Some ([e], p).
Proof. split; [vm_compute; reflexivity|]. split; [repeat constructor|]. do 2 eexists. vm_compute. reflexivity. Qed.

(** * C90 *)
Lemma occurs_skip e evs h past : ~ In e evs -> occurs (evs ++ h) e past -> occurs h e past.
Proof.
  induction evs as [|x evs IH]; intros Hn Ho; [exact Ho|]. destruct Ho as (after & Ho). destruct after as [|y after]; [injection Ho as -> _; exfalso; apply Hn; now left|].
  injection Ho as -> Ho. apply IH; [intros H; apply Hn; now right|]. now exists after.
Qed.
(** the history before a response is that of the callbacks before the one that brings it *)
Lemma resp_split E fa l k st sz h : later l -> occurs (f_log (run E fa l)) (EvGrpcResp k st sz) h ->
  exists l1 l2, l = l1 ++ InGrpc k st sz :: l2 /\ h = f_log (run E fa l1).
Proof.
  assert (NI : forall evs, Forall inner evs -> ~ In (EvGrpcResp k st sz) evs). { intros evs H Hi. rewrite Forall_forall in H. exact (H _ Hi). }
  induction l as [|i l IH] using rev_ind; intros Hl Ho.
  - exfalso. assert (Hn : ~ In (EvGrpcResp k st sz) (f_log (run E fa []))); [|destruct Ho as (after & Ho); apply Hn; rewrite Ho; apply in_or_app; right; now left]. clear Ho.
    pose proof (headers_log E fa) as H. destruct (build E fa (ctx0 [EvReqHeaders])) as [p0|c|c|c] eqn:Hb.
    + destruct (first_callback E fa p0 Hb) as (_ & _ & _ & H2). rewrite H2. intros [Hx|Hx]; [discriminate|].
      destruct (eval_added E (p_emit (EvMetric MHits) p0)) as (evs & He & Hf). rewrite He in Hx. apply in_app_or in Hx as [Hx|Hx]; [now apply NI in Hf|].
      pose proof (build_spec E fa (ctx0 [EvReqHeaders])) as Hs. rewrite Hb in Hs. destruct Hs as (b & c1 & tds & _ & _ & _ & (Hlog & _) & _).
      cbn in Hlog, Hx. rewrite Hlog in Hx. destruct Hx as [Hx|[Hx|[]]]; discriminate.
    + destruct H as (H1 & _). rewrite H1. simpl. intuition discriminate.
    + destruct H as (_ & ok & _ & H1). rewrite H1. destruct ok; simpl; intuition discriminate.
    + destruct H as (_ & _ & H1). rewrite H1. simpl. intuition discriminate.
  - destruct (later_init _ _ Hl) as [Hl' Hi]. rewrite run_snoc in Ho.
    assert (Old : occurs (f_log (run E fa l)) (EvGrpcResp k st sz) h -> exists l1 l2, l ++ [i] = l1 ++ InGrpc k st sz :: l2 /\ h = f_log (run E fa l1)).
    { intros H. destruct (IH Hl' H) as (l1 & l2 & -> & ->). exists l1, (l2 ++ [i]). split; [now rewrite <- app_assoc|reflexivity]. }
    assert (Here : occurs (ev_of i :: f_log (run E fa l)) (EvGrpcResp k st sz) h -> exists l1 l2, l ++ [i] = l1 ++ InGrpc k st sz :: l2 /\ h = f_log (run E fa l1)).
    { intros (after & H). destruct after as [|e after]; [|injection H as _ H; apply Old; now exists after]. injection H as H H'. rewrite <- H'. exists l, [].
      destruct i; try discriminate. injection H as -> -> ->. split; reflexivity. }
    destruct (f_dead (run E fa l)) eqn:Hd0; [rewrite dead_stays in Ho by exact Hd0; now apply Old|].
    destruct (f_pipe (run E fa l)) as [p|] eqn:Hp.
    2:{ destruct (no_pipe_callback E fa _ i Hd0 Hp Hi) as (_ & _ & _ & H2). rewrite H2 in Ho. destruct i as [|n e| |n e|k' st' sz']; [easy| | | |];
        try (apply occurs_skip in Ho; [now apply Old|simpl; intuition discriminate]). now apply Here. }
    destruct (callback E fa _ i p Hd0 Hp Hi) as (_ & _ & _ & H2). rewrite H2 in Ho.
    destruct (callback_log E _ i p Hd0 Hp Hi) as (evs & H3 & H4). set (q := advance E i (seen i (run E fa l) p)) in *.
    apply occurs_skip in Ho.
    + rewrite H3 in Ho. apply occurs_skip in Ho; [|now apply NI]. apply occurs_skip in Ho; [now apply Here|destruct i; try (destruct (nget _ _)); simpl; intuition discriminate].
    + destruct i as [|n e| |n e|k' st' sz']; try (cbn [answer]; intros [H|[]]; discriminate H).
      destruct (answer_grpc k' st' sz' (run E fa l) q) as [R|R]; rewrite R; [easy|]. destruct (f_resp (run E fa l)); intros [H|[]]; discriminate H.
Qed.
Lemma evaluated_in h a : In a (evaluated h) -> In (EvEval a) h.
Proof.
  induction h as [|e h IH]; [easy|]. cbn [evaluated]. destruct e; try (intros H; right; now apply IH). intros H. apply in_app_or in H as [H|[<-|[]]]; [right; now apply IH|now left].
Qed.
Lemma prefix_before {A} (x : A) a b c d : ~ In x c -> (a ++ [x]) ++ b = c ++ d -> incl c a.
Proof.
  revert a. induction c as [|y c IH]; intros a Hn H z; [easy|]. destruct a as [|w a].
  - cbn in H. injection H as -> _. exfalso. apply Hn. now left.
  - cbn [app] in H. injection H as -> H. intros [->|Hz]; [now left|]. right. refine (IH a _ H z Hz). intros Hi. apply Hn. now right.
Qed.
Lemma number_no_reply i a rs : ~ In (nat_text i) (reply_ids a rs).
Proof.
  intros H. apply in_map_iff in H as (n & H & _). apply (nat_text_nodot i). rewrite <- H. apply in_or_app. right. now left.
Qed.
(** When a call that has to follow another one is sent, the other one has completed; and if
    its response was taken in, all of its reply actions have been evaluated before.
    Missing for the full claim: calls among the reply actions, whose responses are not
    awaited; see the refutation. *)
Theorem C90_reply_actions_are_evaluated_before_partial : forall E cfg fa s l i j cl r past,
  fresh_tokens E -> try_from E cfg = Some fa -> serves E cfg fa s -> later l ->
  typed_at (as_actions s) i -> call_at (as_actions s) i -> must_follow (as_actions s) i j ->
  (forall k, j < k < i -> sequential (as_actions s) k -> call_at (as_actions s) k) ->
  occurs (f_log (run E fa l)) (EvDispatch (nat_text i) cl r) past ->
  In (EvDone (nat_text j)) past /\
  forall pr tm g sq var name m rs sc k sz h,
  has_action E cfg s (nat_text j) (mkT pr tm g sq (OpGrpc var name m rs)) -> tget name (pc_services cfg) = Some sc ->
  occurs past (EvGrpcResp k 0 sz) h -> call_open h k (nat_text j) ->
  readable E sc sz (EvEval (nat_text j) :: EvHandle k (nat_text j) :: EvGrpcResp k 0 sz :: h) ->
  forall x, In x (reply_ids (nat_text j) rs) -> In (EvEval x) past.
Proof.
  intros E cfg fa s l i j cl r past F Hf Hs Hl Hty Hca Hm Hk Ho.
  split; [eapply (C01_evaluated_after_what_it_must_follow E cfg fa s l Hf Hs Hl i j); eauto|].
  intros pr tm g sq var name m rs sc k sz h Ha Hsc Hr Hop Hrd x Hx.
  assert (Hor : occurs (f_log (run E fa l)) (EvGrpcResp k 0 sz) h).
  { destruct Ho as (a1 & Ho), Hr as (a2 & Hr). exists (a1 ++ EvDispatch (nat_text i) cl r :: a2). now rewrite Ho, Hr, <- app_assoc. }
  destruct (resp_split _ _ _ _ _ _ _ Hl Hor) as (l1 & l2 & -> & ->).
  assert (Hl1 : later l1) by (intros H; apply Hl; apply in_or_app; now left).
  assert (Hl2 : later l2) by (intros H; apply Hl; apply in_or_app; right; now right).
  assert (NT : forall a, ~ In (EvTerminate a) past).
  { intros a Hi. destruct (C04_nothing_runs_after_termination _ _ _ _ _ _ F Hl Ho Hi) as (Hn & _). now apply Hn. }
  assert (Hpast : incl (f_log (run E fa l1)) past). { destruct Hr as (a2 & ->). intros e He. apply in_or_app. right. now right. }
  destruct (C15_reply_actions_run_first_and_in_order E cfg fa s l1 (nat_text j) pr tm g sq var name m rs sc k sz F Hf Hs Hl1 Ha Hsc) as (after & Haft & Hord); auto.
  { intros (a & Hi). apply (NT a). now apply Hpast. }
  destruct (run_grows E fa (l1 ++ [InGrpc k 0 sz]) l2 Hl2) as (evs & Hg). rewrite <- app_assoc in Hg. cbn [app] in Hg.
  destruct (pipe_or_not E fa) as [(pp & Hbd)|Hn].
  2:{ exfalso. destruct (no_pipe_replies E fa _ Hn Hl) as [H _]. rewrite occurs_hist in H. exact (H _ _ Ho). }
  destruct (F_log _ _ _ _ _ _ (F_run_filter E fa pp _ Hbd Hl)) as [He _]. rewrite occurs_hist in He. destruct (He _ _ Ho) as ((past' & Hpp) & _). clear He.
  destruct Ho as (b1 & Ho), Hr as (b2 & Hr). rewrite Hg, Haft in Ho.
  assert (Heq : (evs ++ after) ++ [EvEval (nat_text j); EvHandle k (nat_text j)] = b1 ++ EvDispatch (nat_text i) cl r :: b2).
  { rewrite Hr in Ho. apply (app_inv_tail (EvGrpcResp k 0 sz :: f_log (run E fa l1))). rewrite <- !app_assoc. cbn [app]. exact Ho. }
  assert (Hij : nat_text i <> nat_text j). { intros H. apply nat_text_inj in H. destruct Hm. lia. }
  (* where the call was sent *)
  assert (W : (exists z, b2 = z ++ after ++ [EvEval (nat_text j); EvHandle k (nat_text j)]) \/
              (exists u w, after = u ++ EvDispatch (nat_text i) cl r :: w /\ b2 = w ++ [EvEval (nat_text j); EvHandle k (nat_text j)])).
  { rewrite <- app_assoc in Heq. clear -Heq. revert b1 Heq. induction evs as [|e evs IH]; intros b1 Heq; cbn [app] in Heq.
    - right. revert b1 Heq. induction after as [|e after IH]; intros b1 Heq; cbn [app] in Heq.
      + destruct b1 as [|? [|? [|]]]; discriminate.
      + destruct b1 as [|e' b1]; [injection Heq as -> <-; exists [], after; now split|]. injection Heq as -> Heq. destruct (IH _ Heq) as (u & w & -> & ->). exists (e' :: u), w. now split.
    - destruct b1 as [|e' b1]; [injection Heq as -> <-; left; now exists evs|]. injection Heq as _ Heq. exact (IH _ Heq). }
  destruct W as [(z & ->)|(u & w & -> & ->)].
  - destruct Hord as [(more & Hm1)|(some & last & rest & _ & _ & Ht)].
    + rewrite Hr. apply in_or_app. left. apply in_or_app. right. apply in_or_app. left. apply evaluated_in. rewrite Hm1. apply in_or_app. now left.
    + exfalso. apply (NT last). rewrite Hr. apply in_or_app. left. apply in_or_app. right. apply in_or_app. now left.
  - destruct w as [|e w].
    + exfalso. rewrite Hr in Hpp. injection Hpp as Hpp _. now destruct Hij.
    + rewrite Hr in Hpp. injection Hpp as -> _. destruct Hord as [(more & Hm1)|(some & last & rest & Hm0 & Hm1 & _)]; rewrite evaluated_app in Hm1; cbn [evaluated] in Hm1.
      * rewrite Hr. apply in_or_app. left. right. apply in_or_app. left. apply evaluated_in.
        revert Hx. revert x. change (incl (reply_ids (nat_text j) rs) (evaluated w)). eapply (prefix_before (nat_text i)); [apply number_no_reply|exact Hm1].
      * exfalso. apply (number_no_reply i (nat_text j) rs). rewrite Hm0. assert (Hi : In (nat_text i) (some ++ [last])) by (rewrite <- Hm1; apply in_or_app; left; apply in_or_app; right; now left).
        apply in_app_or in Hi as [Hi|[->|[]]]; apply in_or_app; [now left|right; now left].
Qed.
Print Assumptions C90_reply_actions_are_evaluated_before_partial.
(** three reply actions of the first call; the second one waits for the first *)
Example ex90p : exists cl r past h,
  fresh_tokens Ed /\ try_from Ed (dcfg ex15b) = Some (dfac Ed ex15b) /\ serves Ed (dcfg ex15b) (dfac Ed ex15b) (set_of ex15b) /\ later [InGrpc 0 0 0] /\
  typed_at ex15b 1 /\ call_at ex15b 1 /\ must_follow ex15b 1 0 /\
  occurs (dlog Ed ex15b [InGrpc 0 0 0]) (EvDispatch (tx "1") cl r) past /\
  has_action Ed (dcfg ex15b) (set_of ex15b) (tx "0") (mkT (tx "true") false true false (OpGrpc (tx "r") (tx "hard") (tx "msg") [dhdr "true" false; ddeny "false" true false; dhdr "true" false])) /\
  occurs past (EvGrpcResp 0 0 0) h /\ call_open h 0 (tx "0") /\ readable Ed (dsvc true) 0 (EvEval (tx "0") :: EvHandle 0 (tx "0") :: EvGrpcResp 0 0 0 :: h) /\
  evaluated past = [tx "0"; tx "0"; tx "0.0"; tx "0.1"; tx "0.2"; tx "1"].
Proof.
  eexists _, _, _, (dlog Ed ex15b []). split; [exact demo_fresh|]. split; [vm_compute; reflexivity|]. split; [serve|]. split; [intros [H|[]]; discriminate|].
  split; [eexists; reflexivity|]. split; [eexists; split; [reflexivity|exact Logic.I]|]. split; [split; [lia|]; split; [simpl; lia|]; left; do 4 eexists; reflexivity|].
  split; [exists []; vm_compute; reflexivity|]. split; [eexists; split; [vm_compute; reflexivity|]; exists 0; eexists _, _; split; [reflexivity|]; split; [reflexivity|]; constructor|].
  split; [eexists [_; _; _; _; _; _; _; _; _; _; _; _]; vm_compute; reflexivity|]. split; [apply call_open_spec; vm_compute; tauto|].
  split; [do 4 eexists; split; [vm_compute; reflexivity|split; vm_compute; reflexivity]|]. vm_compute. reflexivity.
Qed.

(** * C03 *)
(** the actions of a set that make no call *)
Definition makes_no_call (a : action_cfg) : bool :=
  match a with CTyped (mkT _ _ _ _ (OpGrpc _ _ _ _)) => false | CTyped _ => true | CLegacy _ => false end.
Definition no_call_ids (l : list action_cfg) : list text :=
  map nat_text (filter (fun i => match nth_error l i with Some a => makes_no_call a | None => false end) (seq 0 (length l))).
Definition among (ids : list text) (a : text) : bool := existsb (text_eqb a) ids.
Lemma among_in ids a : among ids a = true <-> In a ids.
Proof.
  unfold among. rewrite existsb_exists. split; [intros (x & H & Hx); apply text_eqb_eq in Hx; now subst|]. intros H. exists a. split; [exact H|now apply text_eqb_eq].
Qed.
(** tasks without dependencies are evaluated one after the other, whatever is between them *)
Lemma process_pass E (S : text -> bool) : forall ts p b p', Forall (fun t => S (t_id t) = true -> t_deps t = []) ts -> process E ts p = (b, p') ->
  exists new, c_log (p_ctx p') = new ++ c_log (p_ctx p) /\
    (filter S (evaluated new) = filter S (map t_id ts) \/
     (exists n a, filter S (evaluated new) = firstn n (filter S (map t_id ts)) /\ In (EvTerminate a) new)).
Proof.
  induction ts as [|t ts IH]; intros p b p' Hd Hp; [injection Hp as <- <-; exists []; split; [reflexivity|now left]|].
  inversion_clear Hd as [|? ? Ht Hd']. cbn [process] in Hp.
  assert (K : forall q n1, c_log (p_ctx q) = n1 ++ c_log (p_ctx p) -> filter S (evaluated n1) = filter S [t_id t] -> process E ts q = (b, p') ->
    exists new, c_log (p_ctx p') = new ++ c_log (p_ctx p) /\ (filter S (evaluated new) = filter S (map t_id (t :: ts)) \/
     (exists n a, filter S (evaluated new) = firstn n (filter S (map t_id (t :: ts))) /\ In (EvTerminate a) new))).
  { intros q n1 Hq Hn Hpr. destruct (IH _ _ _ Hd' Hpr) as (n2 & M1 & M2). exists (n2 ++ n1). split; [now rewrite M1, Hq, app_assoc|].
    rewrite evaluated_app, filter_app, Hn. change (map t_id (t :: ts)) with ([t_id t] ++ map t_id ts). rewrite filter_app.
    destruct M2 as [->|(n & a & -> & Ht2)]; [now left|right]. exists (length (filter S [t_id t]) + n), a. split; [now rewrite firstn_app_2|]. apply in_or_app. now left. }
  destruct (blocked (p_done p) t) eqn:Hb.
  - assert (Hs : S (t_id t) = false). { destruct (S (t_id t)) eqn:Hs; [|reflexivity]. unfold blocked in Hb. rewrite (Ht eq_refl) in Hb. discriminate. }
    refine (K _ [] _ _ Hp); [reflexivity|]. cbn. now rewrite Hs.
  - destruct (step E t (p_ctx p)) as [o c] eqn:Hs. destruct (step_evaluated _ _ _ _ _ Hs) as (n1 & N1 & N2 & N3).
    assert (K' : forall q, c_log (p_ctx q) = c_log c -> process E ts q = (b, p') -> exists new, c_log (p_ctx p') = new ++ c_log (p_ctx p) /\ (filter S (evaluated new) = filter S (map t_id (t :: ts)) \/
     (exists n a, filter S (evaluated new) = firstn n (filter S (map t_id (t :: ts))) /\ In (EvTerminate a) new))) by (intros q Hq; apply K with (n1 := n1); [now rewrite Hq|now rewrite N2]).
    destruct o; try (eapply K'; [|exact Hp]; first [reflexivity|apply def_insert_facts]).
    injection Hp as <- <-. destruct N3 as [Hf Ht']. destruct (terminal_sum E t0 c Hf) as (n2 & M1 & M2 & _). exists (n2 ++ n1). cbn [p_ctx p_with_ctx]. rewrite drop_log, M1, N1, app_assoc. split; [reflexivity|].
    right. exists (length (filter S [t_id t])), (t_id t). rewrite evaluated_app, N2. rewrite (evaluated_none n2); [|revert M2; apply Forall_impl; intros e; now destruct e].
    rewrite app_nil_r. change (map t_id (t :: ts)) with ([t_id t] ++ map t_id ts). rewrite filter_app, firstn_app, Nat.sub_diag, firstn_all, firstn_O, app_nil_r.
    split; [reflexivity|]. apply in_or_app. now right.
Qed.
Lemma eval_pass E (S : text -> bool) p : Forall (fun t => S (t_id t) = true -> t_deps t = []) (p_queue p) ->
  exists new, c_log (p_ctx (eval_pipe E p)) = new ++ c_log (p_ctx p) /\
    (filter S (evaluated new) = filter S (map t_id (p_queue p)) \/
     (exists n a, filter S (evaluated new) = firstn n (filter S (map t_id (p_queue p))) /\ In (EvTerminate a) new)).
Proof.
  intros Hd. unfold eval_pipe. destruct (process E (p_queue p) (p_with_queue p [])) as [b p1] eqn:Hp. destruct (process_pass E S _ _ _ _ Hd Hp) as (n1 & N1 & N2). cbn [p_with_queue p_ctx] in N1.
  assert (K : exists new, c_log (p_ctx (execute_teardown E p1)) = new ++ c_log (p_ctx p) /\ (filter S (evaluated new) = filter S (map t_id (p_queue p)) \/
     (exists n a, filter S (evaluated new) = firstn n (filter S (map t_id (p_queue p))) /\ In (EvTerminate a) new))).
  { destruct (teardown_evaluates E p1) as (n2 & M1 & M2). exists (n2 ++ n1). split; [now rewrite M1, N1, app_assoc|]. rewrite evaluated_app, M2, app_nil_r.
    destruct N2 as [N2|(n & a & N2 & N3)]; [now left|right]. exists n, a. split; [exact N2|]. apply in_or_app. now right. }
  destruct b; [exact K|]. destruct (p_queue p1); [destruct (p_def p1); [destruct (p_td p1); [|exact K]|]|]; exists n1; split; assumption.
Qed.
(** the tasks an action gives *)
Lemma action_tasks_heads E rd tr a c ts tds c' (S : text -> bool) : S tu = false -> action_tasks E rd tr a c = Some (ts, tds, c') ->
  filter S (map t_id ts) = filter S [a_id a] /\
  Forall (fun t => t_id t = tu \/ t_id t = a_id a /\ (t_deps t = [] \/ exists i v m rs, a_op a = BGrpc i v m rs)) ts.
Proof.
  intros Htu. unfold action_tasks. destruct (to_core E a c) as [[tk c1]|] eqn:H.
  - pose proof H as H'. apply to_core_shape in H' as (_ & _ & A3 & _).
    assert (K : filter S (map t_id [tk]) = filter S [a_id a]) by (cbn [map]; now rewrite A3).
    destruct (a_op a) as [s v m rs|x|x y|x y z|] eqn:Ho.
    + assert (G : forall t, t_id t = a_id a -> t_id t = tu \/ t_id t = a_id a /\ (t_deps t = [] \/ exists i v' m' rs', BGrpc s v m rs = BGrpc i v' m' rs')) by (intros t Hi; right; split; [exact Hi|right; now exists s, v, m, rs]).
      destruct s as [k s|[t|]]; [|intros [= <- <- <-]; split; [exact K|constructor; [now apply G|constructor]]..].
      intros [= <- <- <-]. destruct (collect_body_values rd a); destruct tr; cbn [app map filter t_id]; try change (tx "token_usage") with tu; rewrite ?Htu, ?A3;
        (split; [reflexivity|]); repeat (apply Forall_cons); try apply Forall_nil; first [left; reflexivity|apply G; cbn [t_id]; exact A3].
    + intros [= <- <- <-]. split; [exact K|]. constructor; [|constructor]. right. split; [exact A3|left]. destruct a as [id p tm op d g]. cbn in Ho. subst op. cbn in H. injection H as <- <-. reflexivity.
    + intros [= <- <- <-]. split; [exact K|]. constructor; [|constructor]. right. split; [exact A3|left]. destruct a as [id p tm op d g]. cbn in Ho. subst op. cbn in H. injection H as <- <-. reflexivity.
    + intros [= <- <- <-]. split; [exact K|]. constructor; [|constructor]. right. split; [exact A3|left]. destruct a as [id p tm op d g]. cbn in Ho. subst op. cbn in H. injection H as <- <-. reflexivity.
    + intros [= <- <- <-]. split; [exact K|]. constructor; [|constructor]. right. split; [exact A3|left]. destruct a as [id p tm op d g]. cbn in Ho. subst op. cbn in H. injection H as <- <-. reflexivity.
  - destruct (a_op a) as [s v m rs|x|x y|x y z|]; try discriminate. destruct s as [k s|[t|]]; discriminate.
Qed.
Lemma actions_tasks_heads E rd tr (S : text -> bool) l : S tu = false -> forall c ts tds c', actions_tasks E rd tr l c = Some (ts, tds, c') ->
  filter S (map t_id ts) = filter S (map a_id l) /\
  Forall (fun t => t_id t = tu \/ exists a, In a l /\ t_id t = a_id a /\ (t_deps t = [] \/ exists i v m rs, a_op a = BGrpc i v m rs)) ts.
Proof.
  intros Htu. induction l as [|a l IH]; intros c ts tds c'; cbn [actions_tasks]; [intros [= <- <- <-]; now split|].
  destruct (action_tasks E rd tr a c) as [[[t1 td1] c1]|] eqn:H1; [|discriminate]. apply (action_tasks_heads _ _ _ _ _ _ _ _ S Htu) in H1 as (A1 & A2).
  destruct (actions_tasks E rd tr l c1) as [[[t2 td2] c2]|] eqn:H2; [|discriminate]. apply IH in H2 as (B1 & B2).
  intros [= <- <- <-]. split.
  - rewrite map_app, filter_app, A1, B1. change (map a_id (a :: l)) with ([a_id a] ++ map a_id l). now rewrite filter_app.
  - apply Forall_app. split.
    + revert A2. apply Forall_impl. intros t [H|H]; [now left|right]. exists a. split; [now left|exact H].
    + revert B2. apply Forall_impl. intros t [H|(x & H & H')]; [now left|right]. exists x. split; [now right|exact H'].
Qed.
Lemma no_call_op E svs rd i a d act : compile_action E svs rd (i, (a, d)) = Some act -> makes_no_call a = true -> forall s v m rs, a_op act <> BGrpc s v m rs.
Proof.
  destruct a as [[p tm g sq op]|l]; [|discriminate]. intros H Hn s v m rs. cbn [compile_action] in H. destruct (compile_typed E svs (mkT p tm g sq op) (nat_text i)) as [a0|] eqn:Hc; [|discriminate]. injection H as <-.
  destruct (set_deps_facts d a0) as (_ & _ & -> & _). cbn [compile_typed] in Hc. destruct (parse_expr E p); [|discriminate]. destruct op; [discriminate| | | |].
  all: try (match type of Hc with context [parse_expr ?e ?x] => destruct (parse_expr e x); [|discriminate] end); injection Hc as <-; discriminate.
Qed.
Lemma compiled_names E svs rd s l : compiled E svs rd s l -> map a_id l = map nat_text (seq 0 (length (as_actions s))).
Proof.
  intros [Hn Hc]. rewrite <- Hn. clear Hn. apply nth_ext with (d := []) (d' := []); [now rewrite !map_length, seq_length|]. intros i Hi. rewrite map_length in Hi.
  destruct (nth_error l i) as [a|] eqn:Ha; [|apply nth_error_None in Ha; lia]. rewrite (nth_error_nth _ _ _ (map_nth_error a_id _ _ Ha)).
  destruct (Hc i a Ha) as (cf & d & _ & _ & Hca). apply compile_action_typed in Hca as (t & a0 & Ht & ->). apply compile_typed_ids in Ht as (Hid & _). destruct (set_deps_facts d a0) as (-> & _). rewrite Hid.
  assert (Hs : nth_error (seq 0 (length l)) i = Some i). { rewrite (nth_error_nth' _ 0) by now rewrite seq_length. now rewrite seq_nth. }
  now rewrite (nth_error_nth _ _ _ (map_nth_error nat_text _ _ Hs)).
Qed.
Lemma filter_names (l : list action_cfg) : filter (among (no_call_ids l)) (map nat_text (seq 0 (length l))) = no_call_ids l.
Proof.
  unfold no_call_ids at 2. set (f := fun i => _). assert (K : forall is, incl is (seq 0 (length l)) -> filter (among (no_call_ids l)) (map nat_text is) = map nat_text (filter f is)); [|apply K; easy].
  induction is as [|i is IH]; intros Hi; [reflexivity|]. cbn [map filter]. rewrite IH by (intros x Hx; apply Hi; now right).
  assert (Ha : among (no_call_ids l) (nat_text i) = f i).
  { apply eq_true_iff_eq. rewrite among_in. unfold no_call_ids. fold f. rewrite in_map_iff. split.
    - intros (j & Hj & Hin). apply nat_text_inj in Hj. subst j. now apply filter_In in Hin.
    - intros Hf. exists i. split; [reflexivity|]. apply filter_In. split; [apply Hi; now left|exact Hf]. }
  rewrite Ha. now destruct (f i).
Qed.
Lemma no_call_is_number l x : In x (no_call_ids l) -> exists i a, x = nat_text i /\ nth_error l i = Some a /\ makes_no_call a = true.
Proof.
  intros H. apply in_map_iff in H as (i & <- & H). apply filter_In in H as [_ H]. destruct (nth_error l i) as [a|] eqn:Ha; [|discriminate]. eauto.
Qed.
(** In the first callback the actions that make no call are all evaluated, in the order of the
    configuration, whatever calls are between them; an action that ends processing leaves the
    ones after it out.  (The last case: the filter trapped before evaluating anything.)
    Missing for the full claim: they wait neither for the responses of earlier calls nor for
    earlier actions that have to wait, see the refutation. *)
Theorem C03_actions_that_make_no_call_are_evaluated_in_order_partial : forall E cfg fa s, serves E cfg fa s ->
  let h := f_log (run E fa []) in let ids := no_call_ids (as_actions s) in
  filter (among ids) (evaluated h) = ids \/
  (terminated h /\ exists n, filter (among ids) (evaluated h) = firstn n ids) \/
  (f_dead (run E fa []) = true /\ evaluated h = []).
Proof.
  intros E cfg fa s (_ & svs & bp & c & Hsv & Hbp & Hsel). cbv zeta. set (ids := no_call_ids (as_actions s)). set (S := among ids).
  assert (NT : forall x, In x ids -> exists i, x = nat_text i). { intros x Hx. apply no_call_is_number in Hx as (i & a & -> & _). now exists i. }
  assert (Htu : S tu = false).
  { destruct (S tu) eqn:Hx; [|reflexivity]. apply among_in in Hx. apply NT in Hx as (i & Hx). exfalso. refine (tu_not_number i _). left. exact Hx. }
  pose proof (compile_set_compiled _ _ _ _ _ Hbp) as Hcm.
  assert (Hdev : filter S (map a_id (cfg_dev svs cfg)) = []).
  { unfold cfg_dev. destruct (pc_identifier cfg) as [h|]; [|reflexivity].
    cbn [map filter]. match goal with |- context [S ?x] => destruct (S x) eqn:Hx end; [|reflexivity]. exfalso. apply among_in in Hx. apply NT in Hx as (i & Hx).
    refine (dev_not_number i _). left. rewrite <- Hx. reflexivity. }
  assert (Hq : forall ts tds c0 c', actions_tasks E (map (fun r => snd (snd r)) (fa_rdata fa)) (existsb is_exporter (bp_actions bp ++ cfg_dev svs cfg)) (bp_actions bp ++ cfg_dev svs cfg) c0 = Some (ts, tds, c') ->
    filter S (map t_id ts) = ids /\ Forall (fun t => S (t_id t) = true -> t_deps t = []) ts).
  { intros ts tds c0 c' Ht. apply (actions_tasks_heads _ _ _ S _ Htu) in Ht as [H1 H2]. split.
    - rewrite H1, map_app, filter_app, Hdev, app_nil_r, (compiled_names _ _ _ _ _ Hcm). apply filter_names.
    - revert H2. apply Forall_impl. intros t H2 Hs. destruct H2 as [H2|(a & Ha & Hid & [Hd|(i & v & m & rs & Hop)])]; [rewrite H2, Htu in Hs; discriminate|exact Hd|]. exfalso.
      apply among_in in Hs. apply no_call_is_number in Hs as (i' & cf & Hi & Hn & Hm). rewrite Hid in Hi. apply in_app_or in Ha as [Ha|Ha].
      + apply In_nth_error in Ha as (k & Ha). destruct (cm_nth _ _ _ _ _ Hcm k a Ha) as (cf' & d & Hn' & _ & Hca).
        assert (k = i'). { apply nat_text_inj. rewrite <- Hi. pose proof Hca as Hca'. apply compile_action_typed in Hca' as (t' & a0 & Ht' & ->). apply compile_typed_ids in Ht' as (Hid' & _). destruct (set_deps_facts d a0) as (-> & _). now rewrite Hid'. }
        subst k. rewrite Hn in Hn'. injection Hn' as <-. exact (no_call_op _ _ _ _ _ _ _ Hca Hm _ _ _ _ Hop).
      + refine (dev_not_number i' _). left. rewrite <- Hi. unfold cfg_dev in Ha. destruct (pc_identifier cfg); [|easy]. destruct Ha as [<-|[]]. reflexivity. }
  pose proof (headers_log E fa) as H. destruct (build E fa (ctx0 [EvReqHeaders])) as [p0|c0|c0|c0] eqn:Hb.
  - destruct (first_callback E fa p0 Hb) as (_ & _ & _ & H2). rewrite H2. cbn [evaluated]. pose proof (build_spec E fa (ctx0 [EvReqHeaders])) as Hs. rewrite Hb in Hs.
    destruct Hs as (b & c1 & tds & Hsel' & Ht & _ & (Hlog & _) & _). rewrite Hsel in Hsel'. injection Hsel' as <- <-. unfold to_tasks in Ht. cbn [bp_actions] in Ht. destruct (Hq _ _ _ _ Ht) as [Q1 Q2].
    destruct (eval_pass E S (p_emit (EvMetric MHits) p0) Q2) as (new & N1 & N2). cbn [p_emit p_with_ctx p_queue] in N2. rewrite Q1 in N2. rewrite N1, evaluated_app. cbn [p_emit p_with_ctx p_ctx emit with_log c_log evaluated].
    rewrite Hlog. cbn [ctx0 c_log evaluated app]. destruct N2 as [N2|(n & a & N2 & N3)]; [now left|]. right. left. split; [exists a; right; apply in_or_app; now left|]. now exists n.
  - left. destruct H as (-> & _). cbn [evaluated filter]. unfold build in Hb. rewrite Hsel in Hb. cbv zeta in Hb. unfold to_tasks in Hb. cbn [bp_actions] in Hb.
    destruct (actions_tasks E _ _ _ _) as [[[ts tds] c3]|] eqn:Ht; [|discriminate]. destruct (Hq _ _ _ _ Ht) as [Q1 _]. destruct ts; [|discriminate]. exact Q1.
  - exfalso. unfold build in Hb. rewrite Hsel in Hb. cbv zeta in Hb. destruct (to_tasks E _ _ _) as [[[ts tds] c3]|]; [destruct ts|]; discriminate.
  - right. right. destruct H as (_ & H1 & ->). split; [exact H1|reflexivity].
Qed.
Print Assumptions C03_actions_that_make_no_call_are_evaluated_in_order_partial.
(** a header change, a call, and two more actions that make none *)
Definition ex03p : list action_cfg := [CTyped (dhdr "true" false); dcall "hard" false []; CTyped (ddeny "false" true true); CTyped (dhdr "true" false)].
Example C03_ex : serves Ed (dcfg ex03p) (dfac Ed ex03p) (set_of ex03p) /\ no_call_ids ex03p = [tx "0"; tx "2"; tx "3"] /\
  evaluated (dlog Ed ex03p []) = [tx "0"; tx "1"; tx "2"; tx "3"].
Proof. split; [serve|]. split; vm_compute; reflexivity. Qed.

(** * C48 *)
(** evaluations of a store action for the response body, each of which saw one piece of an
    event stream, which was not the last one, and left the action waiting *)
Inductive stream_fed (E : env) (t : bstate -> task) : bstate -> list text -> bstate -> Prop :=
| sf_start bs : stream_fed E t bs [] bs
| sf_next bs Bs bs1 c B p c' : stream_fed E t bs Bs bs1 -> B <> [] -> b_size (c_respb c) = N.of_nat (length B) -> b_eos (c_respb c) = false ->
    h_respbody E (c_log c) 0 (b_size (c_respb c)) = HOk (Some B) ->
    apply E (t bs1) c = (ORequeued [t (BSActive SrcResp (BSse p))], c') -> stream_fed E t bs (Bs ++ [B]) (BSActive SrcResp (BSse p)).
(** what a parser gives when its stream has ended *)
Definition stream_end (E : env) (p : sbparser) (c : ctx) : rd (bparser * ctx) :=
  match sb_finalize E p with
  | Some p' => if forallb (fun f => match tget f (sb_extracted p') with Some _ => true | None => false end) (sb_fields p')
               then RAvail (BSse p', src_set SrcResp (bp_populate (BSse p') (c_respb c)) c) else RErr
  | None => RErr
  end.
Lemma none_remaining p : (match bp_remaining p with [] => true | _ => false end) = forallb (fun f => match tget f (bp_extracted p) with Some _ => true | None => false end) (bp_fields p).
Proof.
  unfold bp_remaining. induction (bp_fields p) as [|f fs IH]; [reflexivity|]. cbn [filter forallb]. destruct (tget f (bp_extracted p)); [exact IH|reflexivity].
Qed.
Lemma feed_one E p c B : B <> [] -> b_size (c_respb c) = N.of_nat (length B) -> h_respbody E (c_log c) 0 (b_size (c_respb c)) = HOk (Some B) ->
  feed_parser E SrcResp (BSse p) c =
  match sb_feed B p with
  | None => RErr
  | Some p' => if b_eos (c_respb c) then stream_end E p' c else RAvail (BSse p', src_set SrcResp (bp_populate (BSse p') (c_respb c)) c)
  end.
Proof.
  intros Hne Hn Hr. unfold feed_parser, src_body. assert (H0 : N.eqb (b_size (c_respb c)) 0 = false) by (rewrite Hn; destruct B; [easy|reflexivity]). rewrite H0. cbn [andb negb bp_consumed].
  assert (Hlt : (0 <? b_size (c_respb c))%N = true) by (rewrite Hn; destruct B; [easy|reflexivity]). rewrite Hlt, N.sub_0_r. unfold src_read. rewrite Hr. cbn [bp_feed]. destruct (sb_feed B p) as [p'|]; [|reflexivity]. cbn [option_map].
  destruct (b_eos (c_respb c)); [|reflexivity]. unfold stream_end. cbn [bp_finalize]. destruct (sb_finalize E p') as [p2|]; [|reflexivity]. cbn [option_map].
  pose proof (none_remaining (BSse p2)) as K. cbn [bp_extracted bp_fields] in K. rewrite <- K. now destruct (bp_remaining (BSse p2)).
Qed.
Lemma sb_feed_all_snoc Bs B : forall p, sb_feed_all p (Bs ++ [B]) = match sb_feed_all p Bs with Some p' => sb_feed B p' | None => None end.
Proof. induction Bs as [|C Bs IH]; intros p; cbn [app sb_feed_all]; [now destruct (sb_feed B p)|]. destruct (sb_feed C p); [apply IH|reflexivity]. Qed.
Lemma value_waits E self id pred ex path export tm c l c' : store_value E self id pred ex path export tm c = (ORequeued l, c') -> l = [self].
Proof.
  unfold store_value. destruct (test_in E pred (scope_vars id c) c) as [[[|[|]|] vs] c1]; try discriminate; [now intros [= <- _]|].
  destruct (eval_in E ex vs c1) as [[[|v|] vs2] c2]; try discriminate; [now intros [= <- _]|].
  match goal with |- (let (_, _) := ?x in _) = _ -> _ => destruct x as [ok c3] end. destruct ok; [destruct tm|]; discriminate.
Qed.
Lemma json_stays E src jp c p' c' : feed_parser E src (BJson jp) c = RAvail (p', c') -> exists jp', p' = BJson jp'.
Proof.
  unfold feed_parser. destruct (N.eqb _ 0 && _); [discriminate|]. cbv zeta.
  match goal with |- match ?x with _ => _ end = _ -> _ => assert (K : forall q, x = RAvail q -> exists jp', q = BJson jp'); [|destruct x as [|q|]; try discriminate; destruct (K q eq_refl) as (j & ->)] end.
  - intros q. destruct (_ <? _)%N; [|intros [= <-]; eauto]. destruct (src_read _ _ _ _ _) as [[chunk|]| |]; try discriminate. cbn [bp_feed]. destruct (jp_feed E chunk jp); [|discriminate]. intros [= <-]. eauto.
  - destruct (b_eos _); [|intros [= <- _]; eauto]. cbn [bp_finalize]. destruct (jp_finalize E j) as [j2|]; [|discriminate]. cbn [option_map]. destruct (bp_remaining _); [|discriminate]. intros [= <- _]. eauto.
Qed.
Lemma json_never E id pred ex path export tm src jp p c c' :
  match feed_parser E src (BJson jp) c with
  | RPending => (ORequeued [TStore id pred ex path export tm (BSActive src (BJson jp))], c)
  | RErr => (OFailed, c)
  | RAvail (p', c') => store_value E (TStore id pred ex path export tm (BSActive src p')) id pred ex path export tm c'
  end = (ORequeued [TStore id pred ex path export tm (BSActive SrcResp (BSse p))], c') -> False.
Proof.
  destruct (feed_parser E src (BJson jp) c) as [|[p' c1]|] eqn:Hf; [discriminate| |discriminate]. destruct (json_stays _ _ _ _ _ _ Hf) as (j & ->). intros H. apply value_waits in H. discriminate.
Qed.
Lemma stream_fold E id pred ex path export tm fields Bs p : stream_fed E (TStore id pred ex path export tm) (BSPending SrcResp fields) Bs (BSActive SrcResp (BSse p)) ->
  sb_feed_all (sb_new fields) Bs = Some p.
Proof.
  intros H. remember (BSPending SrcResp fields) as bs0 eqn:H0. remember (BSActive SrcResp (BSse p)) as bs2 eqn:H2. revert p H2.
  induction H as [bs|bs Bs bs1 c B p c' Hu IH Hne Hn He Hr Ha]; intros p' H2; [congruence|]. injection H2 as <-. specialize (IH H0).
  assert (G : forall q c1, c_log c1 = c_log c -> c_respb c1 = c_respb c ->
    match feed_parser E SrcResp (BSse q) c1 with
    | RPending => (ORequeued [TStore id pred ex path export tm (BSActive SrcResp (BSse q))], c1)
    | RErr => (OFailed, c1)
    | RAvail (p', c') => store_value E (TStore id pred ex path export tm (BSActive SrcResp p')) id pred ex path export tm c'
    end = (ORequeued [TStore id pred ex path export tm (BSActive SrcResp (BSse p))], c') -> sb_feed B q = Some p).
  { intros q c1 Hl Hb HG. rewrite (feed_one E q c1 B Hne) in HG by (rewrite ?Hb, ?Hl; assumption). destruct (sb_feed B q) as [q'|]; [|discriminate]. rewrite Hb, He in HG. apply value_waits in HG. injection HG as <-. reflexivity. }
  rewrite sb_feed_all_snoc. destruct bs1 as [|src fs|src [jp|q]].
  - exfalso. cbn [apply apply_store] in Ha. apply value_waits in Ha. discriminate.
  - assert (HB : Bs = [] /\ BSPending src fs = BSPending SrcResp fields) by (clear -Hu H0; inversion Hu; subst; split; congruence). destruct HB as [-> HB]. injection HB as -> ->. cbn [sb_feed_all].
    cbn [apply apply_store] in Ha. unfold create_parser in Ha. destruct (read_headers E p_resp_headers c) as [[|h|] c1] eqn:Hh; [discriminate| |]; apply read_headers_ext in Hh; pose proof (ext_log _ _ Hh) as L1; pose proof (ext_respb _ _ Hh) as L2.
    + destruct (is_sse_type h); [now apply (G _ c1 L1 L2)|]. exfalso. destruct (jp_new E fields) as [jp|]; [|discriminate]. exact (json_never _ _ _ _ _ _ _ _ _ _ _ _ Ha).
    + exfalso. destruct (jp_new E fields) as [jp|]; [|discriminate]. exact (json_never _ _ _ _ _ _ _ _ _ _ _ _ Ha).
  - exfalso. cbn [apply apply_store] in Ha. exact (json_never _ _ _ _ _ _ _ _ _ _ _ _ Ha).
  - assert (src = SrcResp) by (clear -Hu H0; inversion Hu; subst; congruence). subst src. destruct (sb_feed_all (sb_new fields) Bs) as [q'|] eqn:Hq; specialize (IH q eq_refl); [|discriminate]. injection IH as ->. cbn [apply apply_store] in Ha. now apply (G _ c eq_refl eq_refl).
Qed.

Lemma one_go Bs : forall p, Forall good Bs -> Bs <> [] -> sb_complete p = false -> sb_feed_all p Bs = sb_feed (concat Bs) p.
Proof.
  intros p Hg Hne Hc. destruct (sb_feed_all_spec Bs p Hg Hc) as (es & sp & H1 & ->). destruct (C41_chunking_does_not_matter_partial Bs (sb_parser p) Hg Hne) as (es' & sp' & H2 & H3).
  rewrite H1 in H2. injection H2 as <- <-. unfold sb_feed. now rewrite Hc, H3.
Qed.
(** With a host that shows an event stream piece by piece, the store action ends up with what
    the parser gives for the whole stream in one go, if no piece begins or ends inside a
    character: every byte is parsed once.
    Missing for the full claim: hosts whose buffer grows, see the refutation. *)
Theorem C48_streams_shown_in_pieces_are_parsed_once_partial : forall E id pred ex path export tm fields Bs p B c,
  stream_fed E (TStore id pred ex path export tm) (BSPending SrcResp fields) Bs (BSActive SrcResp (BSse p)) -> Forall good (Bs ++ [B]) ->
  B <> [] -> b_size (c_respb c) = N.of_nat (length B) -> b_eos (c_respb c) = true -> h_respbody E (c_log c) 0 (b_size (c_respb c)) = HOk (Some B) ->
  exists q, sb_feed (concat (Bs ++ [B])) (sb_new fields) = Some q /\ feed_parser E SrcResp (BSse p) c = stream_end E q c.
Proof.
  intros E id pred ex path export tm fields Bs p B c Hs Hg Hne Hn He Hr. apply stream_fold in Hs. pose proof (sb_feed_all_snoc Bs B (sb_new fields)) as Hq. rewrite Hs in Hq.
  destruct (sb_feed_all_spec (Bs ++ [B]) (sb_new fields) Hg eq_refl) as (es & sp & _ & Hx). rewrite (one_go (Bs ++ [B]) (sb_new fields) Hg) in Hx, Hq by (try (now destruct Bs); reflexivity).
  eexists. split; [exact Hx|]. rewrite (feed_one E p c B Hne Hn Hr), <- Hq, Hx, He. reflexivity.
Qed.
Print Assumptions C48_streams_shown_in_pieces_are_parsed_once_partial.
(** a stream in two pieces: the first leaves the action waiting, and the field is stored at
    the end *)
Definition respx : expr := expr_of (ACall None (tx "responseBodyJSON") [ALit (VString (tx "/a"))]).
Definition E48 : env := Eb "text/event-stream" (chunked [firstn 9 sse_doc; skipn 9 sse_doc]).
Example ex48 : exists p q c2, stream_fed E48 (TStore (tx "0") true_expr respx (tx "p") true false) (BSPending SrcResp [tx "/a"]) [firstn 9 sse_doc] (BSActive SrcResp (BSse p)) /\
  c2 = with_respb (ctx0 [EvRespBody 19 true; EvRespBody 9 false]) (mkBody 19 true []) /\
  Forall good [firstn 9 sse_doc; skipn 9 sse_doc] /\ h_respbody E48 (c_log c2) 0 19 = HOk (Some (skipn 9 sse_doc)) /\
  stream_end E48 q c2 <> RErr /\ sb_feed sse_doc (sb_new [tx "/a"]) = Some q /\
  outcome_of E48 [InRespHeaders; InRespBody 9 false; InRespBody 19 true] = [ok_bytes].
Proof.
  eexists _, _, _. split; [|split; [reflexivity|]; split; [repeat constructor; vm_compute; reflexivity|]; split; [vm_compute; reflexivity|]; split; [|split; vm_compute; reflexivity]].
  - apply (sf_next E48 _ _ [] (BSPending SrcResp [tx "/a"]) (with_respb (ctx0 [EvRespBody 9 false]) (mkBody 9 false [])) (firstn 9 sse_doc) _ (snd (apply E48 (TStore (tx "0") true_expr respx (tx "p") true false (BSPending SrcResp [tx "/a"])) (with_respb (ctx0 [EvRespBody 9 false]) (mkBody 9 false []))))).
    + constructor.
    + discriminate.
    + reflexivity.
    + reflexivity.
    + vm_compute. reflexivity.
    + vm_compute. reflexivity.
  - vm_compute. discriminate.
Qed.
