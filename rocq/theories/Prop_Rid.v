(** C30, C78: the request id. *)
From Coq Require Import String List NArith ZArith Bool Lia Arith.
From Verif Require Import Base Value Headers AttrPath Ctx CelProps CelEval Sse Body Tasks Exec Config Legacy Blueprint Factory Filter
  P_Frame P_Apply P_Exec P_Run P_Inv P_Ids P_Plan P_Deps P_Order P_Term P_Bar P_Cfg P_Hist P_Grow P_Wake P_Fail P_Head P_Told P_Eff P_Rid Demo DemoCfg
  Prop_Order Prop_Term Prop_Guard Prop_Wake Prop_Fail Prop_Know Prop_Eff.
From Verif Require Prop_Headers.
Import ListNotations.
Open Scope list_scope.

(** * Specifications *)
(** Calls and exports end their metadata with the id; replies end their headers with it, under
    the tracker's name, if there is a tracker *)
Definition bears (cfg : plugin_cfg) (r : text) (e : ev) : Prop :=
  match e with
  | EvDispatch _ cl _ | EvExport cl _ => exists m, cl_headers cl = m ++ [(tx "x-request-id", r)]
  | EvReply _ h _ _ => match tracker_name cfg with Some n => exists h0, h = h0 ++ [(n, r)] | None => True end
  | _ => True
  end.
Definition uses_id (cfg : plugin_cfg) (e : ev) : Prop :=
  match e with EvDispatch _ _ _ | EvExport _ _ => True | EvReply _ _ _ _ => tracker_name cfg <> None | _ => False end.
(** what comes before the 500 sent for a request whose actions could not be set up *)
Definition setup_failed (past : log) : Prop := past = [EvMetric MErrors; EvReqHeaders].
(** the request headers were changed: by a headers action, or by a store action that exports to
    the attribute path request.headers *)
Definition req_headers_written (past : log) : Prop :=
  (exists h, In (EvSetMap MReq h true) past) \/
  exists v, In (EvSetProp (kuadrant_host_path [tx "request"; tx "headers"]) v true) past.
(** value of the first header with that name *)
Definition first_value (n : text) (h : headers) (v : text) : Prop :=
  exists h1 h2, h = h1 ++ (n, v) :: h2 /\ ~ In n (map fst h1).
(** the CEL text of the dev-mode header *)
Definition dev_text (n r : text) : text := tx "[['" ++ n ++ tx "', '" ++ r ++ tx "']]".

(** * Lemmas *)
Lemma first_value_get n h v : first_value n h v -> h_get n h = Some v.
Proof.
  intros (h1 & h2 & -> & Hn). unfold h_get. induction h1 as [|[k w] h1 IH]; cbn [app find fst map] in *.
  - now rewrite text_eqb_refl.
  - destruct (text_eqb k n) eqn:He; [apply text_eqb_eq in He; subst; now destruct Hn; left|]. apply IH. intros H. apply Hn. now right.
Qed.
Lemma written_dirty past : dirty past -> req_headers_written past.
Proof.
  unfold dirty. rewrite Exists_exists. intros (e & Hi & He). destruct e; cbn in He; try easy.
  - destruct m; [|easy]. destruct ok; [|easy]. left. eauto.
  - destruct ok; [|easy]. subst p. right. eauto.
Qed.

(** [h] is [h0] with the entries of [pairs] in the place of the ones with the same names *)
Definition replaced (pairs h0 h : headers) : Prop := h = Prop_Headers.untouched (map fst pairs) h0 ++ Prop_Headers.last_entries pairs.

(** * C30 *)
Theorem C30_one_request_id : forall E cfg fa l,
  try_from E cfg = Some fa -> later l ->
  exists r, (forall e past, occurs (f_log (run E fa l)) e past -> ~ setup_failed past -> bears cfg r e) /\
    forall n m hd ok past, tracker_name cfg = Some n ->
      occurs (f_log (run E fa l)) (EvSetMap m hd ok) (EvEval dev_id :: past) ->
      m = MResp /\ exists x vs items pairs h0, parse_expr E (dev_text n r) = Some x /\ o_cel E (EvEval dev_id :: past) (ex_ast x) vs = Some (VList items) /\
        Prop_Headers.converted items pairs /\ current E MResp (EvEval dev_id :: past) h0 /\ replaced pairs h0 hd.
Proof.
  intros E cfg fa l Hf Hl. destruct (pipe_or_not E fa) as [(p & Hb)|Hn].
  2:{ destruct (no_pipe_replies E fa l Hn Hl) as [H _]. rewrite occurs_hist in H. exists []. split.
      - intros e past Ho Hs. specialize (H _ _ Ho). destruct e; cbn in H; easy.
      - intros n m hd ok past _ Ho. now apply H in Ho. }
  destruct (built_rid _ _ _ _ Hf Hb) as (svs & Hsv & Ht & Hd & _). rewrite (track_name _ _ Hsv) in Ht, Hd.
  assert (K : forall o, GL o (tracker_name cfg) (f_log (run E fa l)) -> exists r, match o with SFixed id => r = id | _ => True end /\
    forall e past, occurs (f_log (run E fa l)) e past -> ~ setup_failed past -> bears cfg r e).
  { intros o (r & H1 & H2). exists r. split; [now destruct o|]. intros e past (after & Ho) _.
    assert (Hc : carrier (tracker_name cfg) e -> carries (tracker_name cfg) r e) by (apply H1; rewrite Ho; apply in_or_app; right; now left).
    unfold bears. destruct e; cbn in Hc; auto. destruct (tracker_name cfg); [apply Hc; discriminate|exact Logic.I]. }
  destruct (tracker_name cfg) as [n|] eqn:Hnm.
  - destruct (Hd n eq_refl) as (rid & hx & R1 & R2 & R3).
    pose proof (G_run_filter E fa p (SFixed rid) l Hb R1 Hl) as HG. rewrite Ht in HG. apply holds_GL in HG.
    destruct (K _ HG) as (r & -> & H). exists rid. split; [exact H|].
    intros n' m hd ok past [= <-] Ho.
    destruct (F_log _ _ _ _ _ _ (F_run_filter E fa p l Hb Hl)) as [HF _]. rewrite occurs_hist in HF. specialize (HF _ _ Ho). cbn [eff] in HF.
    destruct HF as [(nd & evs & l' & k & Hi & Heq & Hne & Hdo)|(a & evs & l' & k & Heq & Hne & _ & Hdo)].
    + remember (EvEval (n_id nd) :: l') as L eqn:HL. destruct Hdo; try (now destruct Hne); try (discriminate Heq).
      * cbn [app n_id] in *. subst L. injection Heq as -> -> -> Hid Hl'. subst l' id.
        specialize (R3 _ Hi eq_refl). injection R3 as -> -> -> ->. split; [reflexivity|].
        destruct H1 as (c0 & c & vs' & vs & c' & _ & _ & _ & _ & H1). pose proof (Prop_Headers.C68_header_lists_converted_faithfully v) as Hcv.
        destruct v as [| | | | | | |items| | | |]; try (now rewrite Hcv in H2). exists hx, vs, items. eexists _, h0. split; [exact R2|]. split; [exact H1|]. split; [exact Hcv|].
        split; [now apply basis_current|apply Prop_Headers.h_set_all_spec].
      * exfalso. destruct H0 as [|e evs He _]; [now destruct Hne|]. cbn [app] in Heq. injection Heq as <- _. destruct He.
    + remember default_node as nd eqn:Hnd. destruct Hdo; try discriminate Hnd; try (now destruct Hne).
  - pose proof (G_run_filter E fa p SAny l Hb Logic.I Hl) as HG. rewrite Ht in HG. apply holds_GL in HG.
    destruct (K _ HG) as (r & _ & H). exists r. split; [exact H|]. discriminate.
Qed.
Print Assumptions C30_one_request_id.
(** If the client sent an id, that is the one, for everything sent before the plugin changes the
    request headers (and hence for everything, once something was sent before that). *)
Theorem C30_client_id_partial : forall E cfg fa l hc id,
  try_from E cfg = Some fa -> later l ->
  h_map E [EvReqHeaders] MReq = HOk hc -> first_value (tx "x-request-id") hc id ->
  forall e0 past0, occurs (f_log (run E fa l)) e0 past0 -> uses_id cfg e0 -> ~ setup_failed past0 -> ~ req_headers_written past0 ->
  forall e past, occurs (f_log (run E fa l)) e past -> ~ setup_failed past -> bears cfg id e.
Proof.
  intros E cfg fa l hc id Hf Hl Hm Hfv e0 past0 Ho0 Hu Hs0 Hw e past Ho Hs. destruct (pipe_or_not E fa) as [(p & Hb)|Hn].
  2:{ destruct (no_pipe_replies E fa l Hn Hl) as [H _]. rewrite occurs_hist in H. specialize (H _ _ Ho). destruct e; cbn in H; easy. }
  destruct (built_rid _ _ _ _ Hf Hb) as (svs & Hsv & Ht & _ & Hc). rewrite (track_name _ _ Hsv) in Ht.
  apply first_value_get in Hfv. specialize (Hc hc id Hm Hfv).
  pose proof (G_run_filter E fa p (SClient hc id) l Hb (conj Hfv Hc) Hl) as HG. rewrite Ht in HG. apply holds_GL in HG.
  destruct HG as (r & H1 & H2). destruct Ho0 as (after0 & Ho0). destruct Ho as (after & Ho).
  assert (r = id) as ->.
  { apply (H2 _ _ _ Ho0); [|intros Hd; apply Hw; now apply written_dirty]. destruct e0; cbn in Hu |- *; easy. }
  assert (Hcc : carrier (tracker_name cfg) e -> carries (tracker_name cfg) id e) by (apply H1; rewrite Ho; apply in_or_app; right; now left).
  unfold bears. destruct e; cbn in Hcc; auto. destruct (tracker_name cfg); [apply Hcc; discriminate|exact Logic.I].
Qed.
Print Assumptions C30_client_id_partial.

(** * C78 *)
Definition quote : Ascii.ascii := Ascii.ascii_of_nat 39.
(** text that a CEL string literal in quotes can hold as it is *)
Definition literal_text (t : text) : Prop := ~ In quote t /\ ~ In backslash t.
(** CEL reads such literals as they are *)
Definition reads_literals (E : env) : Prop :=
  forall n r, literal_text n -> literal_text r -> exists x, parse_expr E (dev_text n r) = Some x /\
    forall past vs, o_cel E past (ex_ast x) vs = Some (VList [VList [VString n; VString r]]).
(** If the client's request id has no quote or backslash, the dev-mode header is that id: nothing
    else is added to the response *)
Theorem C78_dev_mode_header_partial : forall E cfg fa l hc id n m hd ok past,
  try_from E cfg = Some fa -> later l -> reads_literals E ->
  h_map E [EvReqHeaders] MReq = HOk hc -> first_value (tx "x-request-id") hc id -> tracker_name cfg = Some n ->
  literal_text n -> literal_text id ->
  occurs (f_log (run E fa l)) (EvSetMap m hd ok) (EvEval dev_id :: past) ->
  m = MResp /\ exists h0, current E MResp (EvEval dev_id :: past) h0 /\ replaced [(n, id)] h0 hd.
Proof.
  intros E cfg fa l hc id n m hd ok past Hf Hl HR Hm Hfv Hn Ln Lid Ho. destruct (pipe_or_not E fa) as [(p & Hb)|Hp].
  2:{ exfalso. destruct (no_pipe_replies E fa l Hp Hl) as [H _]. rewrite occurs_hist in H. exact (H _ _ Ho). }
  destruct (built_rid _ _ _ _ Hf Hb) as (svs & Hsv & _ & Hd & Hc). rewrite (track_name _ _ Hsv) in Hd.
  destruct (Hd n Hn) as (rid & hx & R1 & R2 & R3). apply first_value_get in Hfv.
  assert (rid = id) as ->.
  { destruct (Hc hc id Hm Hfv) as [[H _]|H]; congruence. }
  destruct (F_log _ _ _ _ _ _ (F_run_filter E fa p l Hb Hl)) as [HF _]. rewrite occurs_hist in HF. specialize (HF _ _ Ho). cbn [eff] in HF.
  destruct HF as [(nd & evs & l' & k & Hi & Heq & Hne & Hdo)|(a & evs & l' & k & Heq & Hne & _ & Hdo)].
  - remember (EvEval (n_id nd) :: l') as L eqn:HL. destruct Hdo; try (now destruct Hne); try (discriminate Heq).
    + cbn [app n_id] in *. subst L. injection Heq as -> -> -> Hid Hl'. subst l' id0.
      specialize (R3 _ Hi eq_refl). injection R3 as -> -> -> ->. split; [reflexivity|].
      destruct H0 as (c0 & c & vs' & vs & c' & _ & _ & _ & _ & H0). destruct (HR n id Ln Lid) as (x & X1 & X2). change (dev_text n id) with (tracker_src n id) in X1. rewrite R2 in X1. injection X1 as <-.
      rewrite X2 in H0. injection H0 as <-. exists h0. split; [now apply basis_current|]. exact (Prop_Headers.h_set_all_spec [(n, id)] h0).
    + exfalso. destruct H as [|e evs He _]; [now destruct Hne|]. cbn [app] in Heq. injection Heq as <- _. destruct He.
  - remember default_node as nd eqn:Hnd. destruct Hdo; try discriminate Hnd; try (now destruct Hne).
Qed.
Print Assumptions C78_dev_mode_header_partial.

(** * Examples and counterexamples *)
Lemma pieces_plain rest : forall s acc, ~ In quote s -> pieces acc (s ++ quote :: rest) = (rev acc ++ s) :: pieces [] rest.
Proof.
  induction s as [|c s IH]; intros acc Hq.
  - cbn. now rewrite app_nil_r.
  - assert (Hc : c <> quote) by (intros ->; apply Hq; now left).
    assert (Hp : pieces acc ((c :: s) ++ quote :: rest) = pieces (c :: acc) (s ++ quote :: rest)).
    { cbn [app pieces]. destruct c as [[] [] [] [] [] [] [] []]; try reflexivity. now destruct Hc. }
    rewrite Hp, IH by (intros H; apply Hq; now right). cbn [rev]. now rewrite <- app_assoc.
Qed.
Lemma literals_read id : reads_literals (Eq id).
Proof.
  intros n r [Qn _] [Qr _].
  assert (H : o_parse (Eq id) (dev_text n r) = Some (AList [AList [ALit (VString n); ALit (VString r)]])).
  { change (parse_pairs (tx "[[" ++ quote :: n ++ quote :: tx ", " ++ quote :: r ++ quote :: tx "]]") = Some (AList [AList [ALit (VString n); ALit (VString r)]])).
    unfold parse_pairs. rewrite pieces_plain by (vm_compute; intuition discriminate).
    rewrite pieces_plain by exact Qn. rewrite pieces_plain by (vm_compute; intuition discriminate). rewrite pieces_plain by exact Qr. reflexivity. }
  eexists. split; [unfold parse_expr; rewrite H; reflexivity|]. intros past vs. reflexivity.
Qed.
Definition qfac (id : string) (l : list action_cfg) : factory := match try_from (Eq id) (tcfg l) with Some f => f | None => factory0 end.
Definition ex30 : list action_cfg := [dcall "soft" true []; CTyped (ddeny "true" true true)].
Definition has_id (r : text) (cl : call) : bool := existsb (fun kv => text_eqb (fst kv) (tx "x-request-id") && text_eqb (snd kv) r) (cl_headers cl).
(** a call, a reply and an export with the client's id; the response header too *)
Example C30_ex : try_from (Eq "abc") (tcfg ex30) = Some (qfac "abc" ex30) /\ later [InGrpc 0 0 0; InRespHeaders] /\
  first_value (tx "x-request-id") [(tx "x-request-id", tx "abc")] (tx "abc") /\ tracker_name (tcfg ex30) = Some (tx "x-id") /\
  h_map (Eq "abc") [EvReqHeaders] MReq = HOk [(tx "x-request-id", tx "abc")] /\
  let h := f_log (run (Eq "abc") (qfac "abc" ex30) [InGrpc 0 0 0; InRespHeaders]) in
  existsb (fun e => match e with EvDispatch _ cl _ => has_id (tx "abc") cl | _ => false end) h = true /\
  existsb (fun e => match e with EvExport cl _ => has_id (tx "abc") cl | _ => false end) h = true /\
  existsb (fun e => match e with EvReply 403 [(n, r)] _ true => text_eqb n (tx "x-id") && text_eqb r (tx "abc") | _ => false end) h = true.
Proof.
  split; [vm_compute; reflexivity|]. split; [intros [H|[H|[]]]; discriminate|]. split; [exists [], []; split; [reflexivity|intros []]|].
  split; [reflexivity|]. split; [reflexivity|]. cbv zeta. split; [vm_compute; reflexivity|]. split; vm_compute; reflexivity.
Qed.
Example C78_ex : literal_text (tx "abc") /\ literal_text (tx "x-id") /\
  occurs (f_log (run (Eq "abc") (qfac "abc" [dcall "soft" true []]) []))
    (EvSetMap MResp [(tx "x-id", tx "abc")] true) (EvEval dev_id :: skipn 4 (f_log (run (Eq "abc") (qfac "abc" [dcall "soft" true []]) []))).
Proof.
  split; [split; vm_compute; intuition discriminate|]. split; [split; vm_compute; intuition discriminate|].
  exists (firstn 2 (f_log (run (Eq "abc") (qfac "abc" [dcall "soft" true []]) []))). vm_compute. reflexivity.
Qed.
(** a headers action that sets x-request-id before the first call: the client's id is lost *)
Definition Eid : env := e_map (e_parse Ed (fun s => if text_eqb s (tx "ids") then Some (AList [AList [ALit (VString (tx "x-request-id")); ALit (VString (tx "other"))]]) else parse_demo s))
  (fun _ m => match m with MReq => HOk [(tx "x-request-id", tx "abc")] | MResp => HOk [] end).
Definition ex30b : list action_cfg := [CTyped (mkT (tx "true") false false true (OpHeaders MReq (tx "ids"))); dcall "soft" true []].
Theorem C30_client_id_refuted : exists E cfg fa hc id a cl,
  try_from E cfg = Some fa /\ h_map E [EvReqHeaders] MReq = HOk hc /\ first_value (tx "x-request-id") hc id /\
  In (EvDispatch a cl (Some 0%N)) (f_log (run E fa [])) /\
  cl_headers cl = [(tx "x-request-id", tx "other")] /\ tx "other" <> id.
Proof.
  exists Eid, (dcfg ex30b), (dfac Eid ex30b), [(tx "x-request-id", tx "abc")], (tx "abc"), (tx "1").
  exists (match find (fun e => match e with EvDispatch _ _ _ => true | _ => false end) (f_log (run Eid (dfac Eid ex30b) [])) with Some (EvDispatch _ cl _) => cl | _ => mkCall [] [] [] [] [] 0 end).
  split; [vm_compute; reflexivity|]. split; [reflexivity|]. split; [exists [], []; split; [reflexivity|intros []]|].
  split; [find|]. split; [vm_compute; reflexivity|discriminate].
Qed.
Print Assumptions C30_client_id_refuted.
(** a client can add any header to the response in dev mode: here set-cookie *)
Theorem C78_client_injects_a_header_refuted : exists E cfg fa hc id hd,
  reads_literals E /\ try_from E cfg = Some fa /\ h_map E [EvReqHeaders] MReq = HOk hc /\ first_value (tx "x-request-id") hc id /\
  tracker_name cfg = Some (tx "x-id") /\
  In (EvSetMap MResp hd true) (f_log (run E fa [])) /\ In (tx "set-cookie", tx "x") hd.
Proof.
  exists (Eq "1'], ['set-cookie', 'x"), (tcfg []), (qfac "1'], ['set-cookie', 'x" []), [(tx "x-request-id", tx "1'], ['set-cookie', 'x")], (tx "1'], ['set-cookie', 'x").
  exists [(tx "x-id", tx "1"); (tx "set-cookie", tx "x")].
  split; [apply literals_read|]. split; [vm_compute; reflexivity|]. split; [reflexivity|]. split; [exists [], []; split; [reflexivity|intros []]|].
  split; [reflexivity|]. split; [find|]. right. now left.
Qed.
Print Assumptions C78_client_injects_a_header_refuted.
(** a quote in the client's id makes the plugin panic *)
Theorem C78_quote_panics_refuted : exists E cfg fa hc id,
  reads_literals E /\ try_from E cfg = Some fa /\ h_map E [EvReqHeaders] MReq = HOk hc /\ first_value (tx "x-request-id") hc id /\
  f_dead (run E fa []) = true /\ f_log (run E fa []) = [EvReqHeaders].
Proof.
  exists (Eq "a'b"), (tcfg []), (qfac "a'b" []), [(tx "x-request-id", tx "a'b")], (tx "a'b").
  split; [apply literals_read|]. split; [vm_compute; reflexivity|]. split; [reflexivity|]. split; [exists [], []; split; [reflexivity|intros []]|].
  split; vm_compute; reflexivity.
Qed.
Print Assumptions C78_quote_panics_refuted.
