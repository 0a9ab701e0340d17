(** C125: a name means what was stored under it last. *)
From Coq Require Import String Ascii List NArith ZArith Bool Lia Arith.
From Verif Require Import Base Value Headers AttrPath Ctx CelProps CelEval Sse Body ValueBytes Tasks Exec Config Legacy Blueprint Factory Filter
  P_Frame P_Apply P_Exec P_Run P_Inv P_Ids P_Plan P_Deps P_Order P_Term P_Bar P_Cfg P_Hist P_Grow P_Wake P_Fail P_Head P_Told P_Eff P_Eval P_Props Demo DemoCfg
  Prop_Headers Prop_Order Prop_Term Prop_Guard Prop_Wake Prop_Fail Prop_Eval Prop_Know Prop_Eff Prop_Writes Prop_Call.
Import ListNotations.
Open Scope list_scope.

(** * Specifications *)
(** a name for values of store actions: no dot, not one of those the plugin gives a meaning *)
Definition storable (n : text) : Prop := ~ In dot n /\ is_host_root n = false /\ json_name n = false.
(** The CEL interpreter gives the text [x] the value [v] when [past] has happened, from variables in which every
    storable name has the value that was stored last under it; unless none was, all store actions of that name that
    have ended having had a false condition.  ([newest] and [skipped] are in Prop_Know.v.) *)
Definition from_last (E : env) (cfg : plugin_cfg) (s : action_set) (x : text) (v : value) (past : log) : Prop :=
  exists e vs, parse_expr E x = Some e /\ o_cel E past (ex_ast e) vs = Some v /\
    (clean (ex_ast e) -> forall n, storable n -> (exists w, tget n vs = Some w /\ newest E cfg s n w past) \/ skipped E cfg s n 0 past).
(** what the CEL interpreter says about a name alone *)
Definition cel_names (E : env) : Prop := forall past n vs v, o_cel E past (AIdent n) vs = Some v -> tget n vs = Some v.

(** * C125 *)
Lemma evaluates_last E cfg s a x v past : evaluates E cfg s a x v past -> from_last E cfg s x v past.
Proof.
  intros H. inversion H as [a' x' v' past' e vs Hp Ho _ _ _ Hn]; subst. exists e, vs. split; [exact Hp|]. split; [exact Ho|].
  intros Hc n (D1 & D2 & D3). now apply Hn.
Qed.
(** The condition and the message of every call a configured action sends. *)
Theorem C125_calls_use_what_was_stored_last : forall E cfg fa s l a cl r past,
  cel_constants E -> try_from E cfg = Some fa -> serves E cfg fa s -> later l ->
  occurs (f_log (run E fa l)) (EvDispatch a cl r) past -> a <> dev_id ->
  exists c tm g sq var name msg rs sc v, has_action E cfg s a (mkT c tm g sq (OpGrpc var name msg rs)) /\
    from_last E cfg s c (VBool true) past /\ from_last E cfg s msg v past /\
    tget name (pc_services cfg) = Some sc /\ o_encode E past (callee cl (sc_deny sc)) v = Some (cl_msg cl).
Proof.
  intros E cfg fa s l a cl r past HC Hf Hs Hl Ho Ha.
  destruct (C97_calls_say_what_was_configured _ _ _ _ _ _ _ _ _ HC Hf Hs Hl Ho) as (_ & _ & [(c & tm & g & sq & var & name & msg & rs & sc & v & H1 & H2 & H3 & H4 & _ & H5)|(H & _)]); [|easy].
  exists c, tm, g, sq, var, name, msg, rs, sc, v. split; [exact H1|]. split; [eapply evaluates_last; eauto|]. split; [eapply evaluates_last; eauto|]. now split.
Qed.
Print Assumptions C125_calls_use_what_was_stored_last.
(** Likewise for the header changes. *)
Theorem C125_header_changes_use_what_was_stored_last : forall E cfg fa s l m h ok past,
  try_from E cfg = Some fa -> serves E cfg fa s -> later l ->
  occurs (f_log (run E fa l)) (EvSetMap m h ok) past ->
  exists a past' pairs h0, past = EvEval a :: past' /\ pairs <> [] /\ current E m past h0 /\ changed pairs h0 h /\
    (a = dev_id \/ exists c tm g sq x items, has_action E cfg s a (mkT c tm g sq (OpHeaders m x)) /\
        from_last E cfg s c (VBool true) past /\ from_last E cfg s x (VList items) past /\ converted items pairs).
Proof.
  intros E cfg fa s l m h ok past Hf Hs Hl Ho.
  destruct (C95_header_changes_add_up _ _ _ _ _ _ _ _ _ Hf Hs Hl Ho) as (a & past' & pairs & h0 & H1 & H2 & H3 & H4 & H5).
  exists a, past', pairs, h0. repeat (split; [assumption|]). destruct H5 as [(c & tm & g & sq & x & items & A1 & A2 & A3 & A4)|[-> _]]; [|now left].
  right. exists c, tm, g, sq, x, items. split; [exact A1|]. split; [eapply evaluates_last; eauto|]. split; [eapply evaluates_last; eauto|exact A4].
Qed.
Print Assumptions C125_header_changes_use_what_was_stored_last.
(** Likewise for the denials of deny actions. *)
Theorem C125_denials_use_what_was_stored_last : forall E cfg fa s l st h b ok a past,
  cel_constants E -> try_from E cfg = Some fa -> serves E cfg fa s -> later l ->
  occurs (f_log (run E fa l)) (EvReply st h b ok) (EvMetric MDenied :: EvEval a :: past) ->
  exists p tm g sq d ty fs h0 tr, has_action E cfg s a (mkT p tm g sq (OpDeny d)) /\ h = h0 ++ tr /\ tracker_header cfg tr /\
    from_last E cfg s p (VBool true) (EvEval a :: past) /\ from_last E cfg s d (VStruct ty fs) (EvEval a :: past) /\ says fs st h0 b.
Proof.
  intros E cfg fa s l st h b ok a past HC Hf Hs Hl Ho.
  destruct (C34_replies_say_what_was_configured _ _ _ _ _ _ _ _ _ _ Hf Hs Hl HC Ho) as [(h0 & tr & H1 & H2 & [(a' & p & tm & g & sq & d & ty & fs & past' & [= <- <-] & Hy & A1 & A2 & A3)|(a' & past' & [=] & _)])|(_ & _ & _ & [=])].
  exists p, tm, g, sq, d, ty, fs, h0, tr. split; [exact Hy|]. split; [exact H1|]. split; [exact H2|]. split; [eapply evaluates_last; eauto|]. split; [eapply evaluates_last; eauto|exact A3].
Qed.
Print Assumptions C125_denials_use_what_was_stored_last.
(** A store action that exports what stands under a storable name exports the value that was stored there last; unless
    none was. *)
Theorem C125_exports_are_what_was_stored_last : forall E cfg fa s l a c tm g sq path x e n hp bytes ok past,
  cel_names E -> try_from E cfg = Some fa -> serves E cfg fa s -> later l ->
  has_action E cfg s a (mkT c tm g sq (OpStore path x true)) -> parse_expr E x = Some e -> ex_ast e = AIdent n -> storable n -> n <> [] -> ~ In backslash n ->
  occurs (f_log (run E fa l)) (EvSetProp hp bytes ok) (EvEval a :: past) ->
  exported_as path hp /\ exists v, exports v bytes /\ (newest E cfg s n v (EvEval a :: past) \/ skipped E cfg s n 0 (EvEval a :: past)).
Proof.
  intros E cfg fa s l a c tm g sq path x e n hp bytes ok past HC Hf Hs Hl Hy Hx He Hn Hn1 Hn2 Ho.
  destruct (C94_properties_come_from_store_actions _ _ _ _ _ _ _ _ _ Hf Hs Hl Ho) as (a' & past' & c' & tm' & g' & sq' & path' & x' & v & [= <- <-] & Hy' & _ & Hv & Hex & Hnm).
  assert (Hu : mkT c tm g sq (OpStore path x true) = mkT c' tm' g' sq' (OpStore path' x' true)).
  { destruct Hy as (svs & S1 & Hy), Hy' as (svs' & S2 & Hy'). assert (svs' = svs) as -> by congruence. eapply configured_unique; eauto. }
  injection Hu as <- <- <- <- <- <-. split; [exact Hnm|]. exists v. split; [exact Hex|].
  destruct (evaluates_last _ _ _ _ _ _ _ Hv) as (e' & vs & P1 & P2 & P3). assert (e' = e) as -> by congruence. rewrite He in P2, P3. apply HC in P2.
  destruct (P3 ltac:(intros m Hm; inversion Hm as [| |? ? ? Hsub]; subst; [now split|inversion Hsub]) n Hn) as [(w & W1 & W2)|H]; [left|now right]. congruence.
Qed.
Print Assumptions C125_exports_are_what_was_stored_last.
(** Two values are stored under one name; a third store action of that name has a false condition.  A fourth exports
    the name: it is the second value. *)
Definition put (c x : string) : action_cfg := CTyped (mkT (tx c) false false true (OpStore (tx "r") (tx x) false)).
Definition ex125 : list action_cfg := [put "true" "msg"; put "true" "true"; put "false" "msg"; CTyped (mkT (tx "true") false false true (OpStore (tx "out") (tx "reply") true))].
Definition log125 : log := f_log (run Ed (dfac Ed ex125) []).
Example C125_ex : cel_names Ed /\ try_from Ed (dcfg ex125) = Some (dfac Ed ex125) /\ serves Ed (dcfg ex125) (dfac Ed ex125) (set_of ex125) /\
  has_action Ed (dcfg ex125) (set_of ex125) (tx "3") (mkT (tx "true") false false true (OpStore (tx "out") (tx "reply") true)) /\ storable (tx "r") /\
  (exists past, occurs log125 (EvSetProp [tx "kuadrant.out"] [ascii_of_nat 32; ascii_of_nat 1] true) (EvEval (tx "3") :: past)) /\
  value_bytes (VBool true) = Some [ascii_of_nat 32; ascii_of_nat 1] /\
  In (EvDone (tx "0")) log125 /\ In (EvDone (tx "1")) log125 /\ In (EvDone (tx "2")) log125.
Proof.
  split; [intros past n vs v H; exact H|]. split; [vm_compute; reflexivity|]. split; [serve|]. split; [acts 3|].
  split; [split; [now intros [H|[]]|split; vm_compute; reflexivity]|].
  split; [eexists; exists (firstn 2 log125); vm_compute; reflexivity|]. split; [vm_compute; reflexivity|]. split; [find|]. split; find.
Qed.
