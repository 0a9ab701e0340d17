(** C103, C104, C124: expressions that ask for fields of a body. *)
From Coq Require Import String Ascii List NArith ZArith Bool Lia Arith.
From Verif Require Import Base Value Headers AttrPath Ctx CelProps CelEval Sse Body ValueBytes Tasks Exec Config Legacy Blueprint Factory Filter
  P_Frame P_Apply P_Exec P_Run P_Inv P_Ids P_Plan P_Deps P_Order P_Term P_Bar P_Cfg P_Hist P_Grow P_Wake P_Fail P_Head P_Fed P_Told P_Eff P_Eval P_Props Demo DemoCfg
  Prop_Order Prop_Term Prop_Guard Prop_Wake Prop_Fail Prop_Eval Prop_Know Prop_Eff Prop_Writes Prop_Call Prop_Body.
Import ListNotations.
Open Scope list_scope.

(** * Specifications *)
(** what the functions requestBodyJSON and responseBodyJSON say (cel.rs:380-434): the entry of the variable that
    holds the fields of the body, or null *)
Definition reads_body (E : env) : Prop :=
  forall past vs src f v m, o_cel E past (ACall None (body_fn src) [ALit (VString f)]) vs = Some v -> tget (body_var src) vs = Some (VMap m) ->
    v = match aget mkey_eqb (KStr f) m with Some w => w | None => VNull end.
(** [x] is the text of an expression that asks for the field [f] of the body of [src] *)
Definition asks_for (E : env) (src : Tasks.source) (f : text) (x : text) : Prop := exists e, parse_expr E x = Some e /\ asks src f (ex_ast e).
(** [e] tells that (a part of) the body of [src] has come in *)
Definition body_came (src : Tasks.source) (e : ev) : Prop :=
  match src, e with SrcReq, EvReqBody _ _ | SrcResp, EvRespBody _ _ => True | _, _ => False end.

(** * Lemmas *)
Lemma evaluates_asks E cfg s a x v past src f : evaluates E cfg s a x v past -> asks_for E src f x -> exists w, body_says E src past f w.
Proof.
  intros Hev (e & Hx & Ha). inversion Hev as [a' x' v' past' e' vs Hp Ho Hatt Hrep Hbody]; subst. assert (e' = e) as -> by congruence.
  destruct (Hbody src f Ha) as (w & _ & Hw). eauto.
Qed.
Lemma announced_came src : forall l, announced src l <> (0%N, false) -> exists e, In e l /\ body_came src e.
Proof.
  induction l as [|e l IH]; [easy|]. cbn [announced]. destruct (tells src e) as [y|] eqn:Ht.
  - intros _. exists e. split; [now left|]. destruct src, e; try discriminate; exact Logic.I.
  - intros H. destruct (IH H) as (e' & H1 & H2). exists e'. split; [now right|exact H2].
Qed.
Lemma given_came E src on l bs : given E src on l bs -> bs <> [] -> exists e, In e l /\ body_came src e.
Proof.
  induction 1 as [l|e l bs _ IH|l bs b start _ IH Hs Hlt Hr]; intros Hne; [easy| |].
  - destruct (IH Hne) as (e' & H1 & H2). exists e'. split; [now right|exact H2].
  - apply announced_came. intros Ha. rewrite Ha in Hlt. cbn in Hlt. lia.
Qed.
Lemma ended_came src l : ended src l -> exists e, In e l /\ body_came src e.
Proof. intros H. apply announced_came. intros Ha. unfold ended in H. now rewrite Ha in H. Qed.
Lemma says_came E src l f w : (forall fields, o_jfeed E fields [] <> JDone) -> body_says E src l f w -> exists e, In e l /\ body_came src e.
Proof.
  intros HJ (after & past & -> & Hb). assert (exists e, In e past /\ body_came src e) as (e & H1 & H2).
  { destruct Hb as [fields bs raw Hg Ho _ _ _|bs evs sp u j y -> Hg _ He _ _ _ _ _|bs j y -> Hg He _ _ _ _|bs evs sp u j y -> Hg He _ _ _ _ _]; try now apply ended_came.
    destruct Ho as [Ho|[Ho _]]; [|now apply ended_came]. eapply given_came; [exact Hg|]. intros ->. exact (HJ _ Ho). }
  exists e. split; [apply in_or_app; now right|exact H2].
Qed.

(** * C103 *)
(** An expression that is a field of a body has the value the body has there. *)
Theorem C103_body_fields_are_the_bodys : forall E cfg s a x v past e src f,
  reads_body E -> evaluates E cfg s a x v past -> parse_expr E x = Some e -> ex_ast e = ACall None (body_fn src) [ALit (VString f)] ->
  body_says E src past f v.
Proof.
  intros E cfg s a x v past e src f HC Hev Hx He. inversion Hev as [a' x' v' past' e' vs Hp Ho Hatt Hrep Hbody]; subst. assert (e' = e) as -> by congruence.
  rewrite He in *. destruct (Hbody src f (as_here src f)) as (w & (m & Hm & Hw) & Hs). rewrite (HC _ _ _ _ _ _ Ho Hm), Hw. exact Hs.
Qed.
Print Assumptions C103_body_fields_are_the_bodys.
(** A store action that exports a field of a body exports the value the body has there. *)
Theorem C103_exported_body_fields : forall E cfg fa s l a c tm g sq path x e src f hp bytes ok past,
  reads_body E -> try_from E cfg = Some fa -> serves E cfg fa s -> later l ->
  has_action E cfg s a (mkT c tm g sq (OpStore path x true)) -> parse_expr E x = Some e -> ex_ast e = ACall None (body_fn src) [ALit (VString f)] ->
  occurs (f_log (run E fa l)) (EvSetProp hp bytes ok) (EvEval a :: past) ->
  exported_as path hp /\ exists v, body_says E src (EvEval a :: past) f v /\ exports v bytes.
Proof.
  intros E cfg fa s l a c tm g sq path x e src f hp bytes ok past HC Hf Hs Hl Hy Hx He Ho.
  destruct (C94_properties_come_from_store_actions _ _ _ _ _ _ _ _ _ Hf Hs Hl Ho) as (a' & past' & c' & tm' & g' & sq' & path' & x' & v & [= <- <-] & Hy' & _ & Hv & Hex & Hn).
  assert (Hu : mkT c tm g sq (OpStore path x true) = mkT c' tm' g' sq' (OpStore path' x' true)).
  { destruct Hy as (svs & S1 & Hy), Hy' as (svs' & S2 & Hy'). assert (svs' = svs) as -> by congruence. eapply configured_unique; eauto. }
  injection Hu as <- <- <- <- <- <-. split; [exact Hn|]. exists v. split; [|exact Hex]. eapply C103_body_fields_are_the_bodys; eauto.
Qed.
Print Assumptions C103_exported_body_fields.

(** * C104 *)
(** A call whose condition or message asks for a field of a body is not sent before the body had a value there. *)
Theorem C104_calls_wait_for_the_body : forall E cfg fa s l a c tm g sq var name msg rs cl r past src f,
  cel_constants E -> try_from E cfg = Some fa -> serves E cfg fa s -> later l ->
  has_action E cfg s a (mkT c tm g sq (OpGrpc var name msg rs)) -> asks_for E src f c \/ asks_for E src f msg ->
  occurs (f_log (run E fa l)) (EvDispatch a cl r) past -> exists w, body_says E src past f w.
Proof.
  intros E cfg fa s l a c tm g sq var name msg rs cl r past src f HC Hf Hs Hl Hy Ha Ho.
  destruct (C97_calls_say_what_was_configured _ _ _ _ _ _ _ _ _ HC Hf Hs Hl Ho) as (_ & _ & [(c' & tm' & g' & sq' & var' & name' & msg' & rs' & sc & v & Hy' & H1 & H2 & _)|(-> & _)]).
  - assert (Hu : mkT c tm g sq (OpGrpc var name msg rs) = mkT c' tm' g' sq' (OpGrpc var' name' msg' rs')).
    { destruct Hy as (svs & S1 & Hy), Hy' as (svs' & S2 & Hy'). assert (svs' = svs) as -> by congruence. eapply configured_unique; eauto. }
    injection Hu as <- <- <- <- <- <- <- <-. destruct Ha as [Ha|Ha]; (eapply evaluates_asks; [|exact Ha]); eassumption.
  - exfalso. destruct Hy as (svs & _ & Hy). now apply configured_not_dev in Hy.
Qed.
Print Assumptions C104_calls_wait_for_the_body.
(** Likewise for what a store action exports. *)
Theorem C104_exports_wait_for_the_body : forall E cfg fa s l a c tm g sq path x hp bytes ok past src f,
  try_from E cfg = Some fa -> serves E cfg fa s -> later l ->
  has_action E cfg s a (mkT c tm g sq (OpStore path x true)) -> asks_for E src f c \/ asks_for E src f x ->
  occurs (f_log (run E fa l)) (EvSetProp hp bytes ok) (EvEval a :: past) -> exists w, body_says E src (EvEval a :: past) f w.
Proof.
  intros E cfg fa s l a c tm g sq path x hp bytes ok past src f Hf Hs Hl Hy Ha Ho.
  destruct (C94_properties_come_from_store_actions _ _ _ _ _ _ _ _ _ Hf Hs Hl Ho) as (a' & past' & c' & tm' & g' & sq' & path' & x' & v & [= <- <-] & Hy' & Hc & Hv & _).
  assert (Hu : mkT c tm g sq (OpStore path x true) = mkT c' tm' g' sq' (OpStore path' x' true)).
  { destruct Hy as (svs & S1 & Hy), Hy' as (svs' & S2 & Hy'). assert (svs' = svs) as -> by congruence. eapply configured_unique; eauto. }
  injection Hu as <- <- <- <- <- <-. destruct Ha as [Ha|Ha]; (eapply evaluates_asks; [|exact Ha]); eassumption.
Qed.
Print Assumptions C104_exports_wait_for_the_body.
(** Likewise for header changes. *)
Theorem C104_header_changes_wait_for_the_body : forall E cfg fa s l a c tm g sq m x h ok past src f,
  try_from E cfg = Some fa -> serves E cfg fa s -> later l ->
  has_action E cfg s a (mkT c tm g sq (OpHeaders m x)) -> asks_for E src f c \/ asks_for E src f x ->
  occurs (f_log (run E fa l)) (EvSetMap m h ok) (EvEval a :: past) -> exists w, body_says E src (EvEval a :: past) f w.
Proof.
  intros E cfg fa s l a c tm g sq m x h ok past src f Hf Hs Hl Hy Ha Ho.
  destruct (C95_header_changes_add_up _ _ _ _ _ _ _ _ _ Hf Hs Hl Ho) as (a' & past' & pairs & h0 & [= <- <-] & _ & _ & _ & [(c' & tm' & g' & sq' & x' & items & Hy' & H1 & H2 & _)|(-> & _)]).
  - assert (Hu : mkT c tm g sq (OpHeaders m x) = mkT c' tm' g' sq' (OpHeaders m x')).
    { destruct Hy as (svs & S1 & Hy), Hy' as (svs' & S2 & Hy'). assert (svs' = svs) as -> by congruence. eapply configured_unique; eauto. }
    injection Hu as <- <- <- <- <-. destruct Ha as [Ha|Ha]; (eapply evaluates_asks; [|exact Ha]); eassumption.
  - exfalso. destruct Hy as (svs & _ & Hy). now apply configured_not_dev in Hy.
Qed.
Print Assumptions C104_header_changes_wait_for_the_body.
(** Likewise for the denials of deny actions. *)
Theorem C104_denials_wait_for_the_body : forall E cfg fa s l a c tm g sq d st hd b ok past src f,
  cel_constants E -> try_from E cfg = Some fa -> serves E cfg fa s -> later l ->
  has_action E cfg s a (mkT c tm g sq (OpDeny d)) -> asks_for E src f c \/ asks_for E src f d ->
  occurs (f_log (run E fa l)) (EvReply st hd b ok) (EvMetric MDenied :: EvEval a :: past) -> exists w, body_says E src (EvEval a :: past) f w.
Proof.
  intros E cfg fa s l a c tm g sq d st hd b ok past src f HC Hf Hs Hl Hy Ha Ho.
  destruct (C34_replies_say_what_was_configured _ _ _ _ _ _ _ _ _ _ Hf Hs Hl HC Ho) as [(hd0 & tr & _ & _ & [(a' & c' & tm' & g' & sq' & d' & ty & fs & past' & [= <- <-] & Hy' & H1 & H2 & _)|(a' & past' & [=] & _)])|(_ & _ & _ & [=])].
  assert (Hu : mkT c tm g sq (OpDeny d) = mkT c' tm' g' sq' (OpDeny d')).
    { destruct Hy as (svs & S1 & Hy), Hy' as (svs' & S2 & Hy'). assert (svs' = svs) as -> by congruence. eapply configured_unique; eauto. }
    injection Hu as <- <- <- <- <-. destruct Ha as [Ha|Ha]; (eapply evaluates_asks; [|exact Ha]); eassumption.
Qed.
Print Assumptions C104_denials_wait_for_the_body.
(** A body has a value somewhere only when the host has announced (a part of) it. *)
Theorem C104_not_before_the_body : forall E src l f w, (forall fields, o_jfeed E fields [] <> JDone) -> body_says E src l f w ->
  exists e, In e l /\ body_came src e.
Proof. intros E src l f w. apply says_came. Qed.
Print Assumptions C104_not_before_the_body.

(** * C124 *)
(** the field is one of the data of the last event but one, or of a JSON document *)
Definition from_event (E : env) (l : log) (f : text) (w : value) : Prop := exists after past bs evs sp u j y,
  l = after ++ past /\ given E SrcResp false past bs /\ ended SrcResp past /\ sse_parse (concat (filter utf8_valid bs)) sparser0 = POk evs sp /\ penultimate evs u /\
  o_json E (e_data u) = Some j /\ o_pointer E j f = Some y /\ (w = sse_field_value E y \/ st_value y = Some w).
Definition from_document (E : env) (l : log) (f : text) (w : value) : Prop := exists after past on bs, l = after ++ past /\ given E SrcResp on past bs /\
  ((exists fields raw, json_over E SrcResp past fields (concat bs) /\ last_of f (o_jraw E fields (concat bs)) raw /\ w = json_scalar E raw) \/
   (exists j y, ended SrcResp past /\ o_json E (concat bs) = Some j /\ o_pointer E j f = Some y /\ st_value y = Some w)).
(** the headers the host has for the response are [h] whenever it gives any *)
Definition response_headers (E : env) (h : headers) : Prop := forall now, h_map E now MResp = HOk h \/ h_map E now MResp = HNotAvail.
(** nothing was done that changes the headers of the response as the actions see them *)
Definition unchanged (l : log) : Prop :=
  (forall h, ~ In (EvSetMap MResp h true) l) /\ forall v, ~ In (EvSetProp [tx "kuadrant.response.headers"] v true) l.
Lemma basis_headers E l h h' : response_headers E h -> unchanged l -> basis E MResp l h' -> h' = h.
Proof.
  intros HE [Hu _] [(after & past & -> & _)|(_ & after & past & _ & H)]; [exfalso; apply (Hu h'), in_or_app; right; now left|].
  destruct (HE past); congruence.
Qed.
Lemma unchanged_app a l : unchanged (a ++ l) -> unchanged l.
Proof. intros [H1 H2]. split; intros x Hx; [apply (H1 x)|apply (H2 x)]; apply in_or_app; now right. Qed.
Lemma stream_headers E l h : response_headers E h -> unchanged l -> is_stream E l -> stream_type h.
Proof. intros HE Hu (after & past & h' & -> & Hb & Hs). apply unchanged_app in Hu. now rewrite <- (basis_headers E past h h' HE Hu Hb). Qed.
Lemma document_headers E l h : response_headers E h -> unchanged l -> no_stream E l -> ~ stream_type h.
Proof.
  intros HE Hu (after & past & -> & [(h' & Hb & Hs)|[H|(v & H)]]); apply unchanged_app in Hu.
  - now rewrite <- (basis_headers E past h h' HE Hu Hb).
  - destruct (HE past); congruence.
  - exfalso. exact (proj2 Hu v H).
Qed.
Lemma all_valid bs : Forall (fun b => utf8_valid b = true) bs -> filter utf8_valid bs = bs.
Proof. induction 1 as [|b bs Hb _ IH]; [reflexivity|]. cbn. now rewrite Hb, IH. Qed.
Lemma says_by_type E l h f w : response_headers E h -> unchanged l -> body_says E SrcResp l f w ->
  (stream_type h -> from_event E l f w) /\ (~ stream_type h -> from_document E l f w).
Proof.
  intros HE Hu (after & past & -> & H). pose proof (unchanged_app _ _ Hu) as Hp.
  destruct H as [fields bs raw Hg Ho Hl _ Hw Hn|bs evs sp u j y _ Hg Hv He Hps Hpe Hj Hy Hw Hi|bs j y _ Hg He _ Hj Hy Hw Hn|bs evs sp u j y _ Hg He Hps Hpe Hj Hy Hw Hi].
  - pose proof (document_headers E past h HE Hp (Hn eq_refl)) as Hd. split; [easy|]. intros _. exists after, past, true, bs. split; [reflexivity|]. split; [exact Hg|]. left. eauto.
  - pose proof (stream_headers E past h HE Hp Hi) as Hd. split; [|easy]. intros _. exists after, past, bs, evs, sp, u, j, y. rewrite (all_valid _ Hv). auto 12.
  - pose proof (document_headers E past h HE Hp Hn) as Hd. split; [easy|]. intros _. exists after, past, false, bs. split; [reflexivity|]. split; [exact Hg|]. right. exists j, y. auto.
  - pose proof (stream_headers E past h HE Hp Hi) as Hd. split; [|easy]. intros _. exists after, past, bs, evs, sp, u, j, y. auto 12.
Qed.
(** A field of the response body that is exported is read from the events of the body if the content
    type names event streams (with parameters or without), and from the body as a document if not. *)
Theorem C124_the_content_type_decides : forall E cfg fa s l a c tm g sq path x e f hp bytes ok past h,
  reads_body E -> try_from E cfg = Some fa -> serves E cfg fa s -> later l ->
  has_action E cfg s a (mkT c tm g sq (OpStore path x true)) -> parse_expr E x = Some e -> ex_ast e = ACall None (tx "responseBodyJSON") [ALit (VString f)] ->
  occurs (f_log (run E fa l)) (EvSetProp hp bytes ok) (EvEval a :: past) -> response_headers E h -> unchanged past ->
  exists v, exports v bytes /\ (stream_type h -> from_event E (EvEval a :: past) f v) /\ (~ stream_type h -> from_document E (EvEval a :: past) f v).
Proof.
  intros E cfg fa s l a c tm g sq path x e f hp bytes ok past h HC Hf Hs Hl Hy Hx He Ho HE Hu.
  destruct (C103_exported_body_fields E cfg fa s l a c tm g sq path x e SrcResp f hp bytes ok past HC Hf Hs Hl Hy Hx He Ho) as (_ & v & Hv & Hex).
  exists v. split; [exact Hex|]. apply (says_by_type E (EvEval a :: past) h f v HE); [|exact Hv].
  destruct Hu as [H1 H2]. split; intros y [Hi|Hi]; try discriminate; [now apply (H1 y)|now apply (H2 y)].
Qed.
Print Assumptions C124_the_content_type_decides.

(** * Examples *)
Lemma body_demo_reads E : (forall past a vs, o_cel E past a vs = cel_body past a vs) -> reads_body E.
Proof. intros HE past vs src f v m Ho Hm. rewrite HE in Ho. destruct src; cbn in Ho, Hm; unfold req_json_var, resp_json_var in Ho; rewrite Hm in Ho; now rewrite Ho. Qed.
Definition Ej : env := Eb "application/json" (growing doc).
Definition jbody : list fin := [InRespHeaders; InRespBody 3 false; InRespBody 6 true].
Definition ex103 : list action_cfg := [dstore "respbody"].
Example C103_ex : exists e past, reads_body Ej /\ try_from Ej (dcfg ex103) = Some (dfac Ej ex103) /\ serves Ej (dcfg ex103) (dfac Ej ex103) (set_of ex103) /\
  has_action Ej (dcfg ex103) (set_of ex103) (tx "0") (mkT (tx "true") false false false (OpStore (tx "p") (tx "respbody") true)) /\
  parse_expr Ej (tx "respbody") = Some e /\ ex_ast e = ACall None (body_fn SrcResp) [ALit (VString (tx "/a"))] /\
  occurs (f_log (run Ej (dfac Ej ex103) jbody)) (EvSetProp [tx "kuadrant.p"] ok_bytes true) (EvEval (tx "0") :: past) /\ exports (VString (tx "ok")) ok_bytes.
Proof.
  eexists _, (skipn 4 (f_log (run Ej (dfac Ej ex103) jbody))). split; [now apply body_demo_reads|]. split; [vm_compute; reflexivity|]. split; [serve|]. split; [acts 0|].
  split; [vm_compute; reflexivity|]. split; [reflexivity|]. split; [|apply value_exports; vm_compute; reflexivity].
  exists (firstn 2 (f_log (run Ej (dfac Ej ex103) jbody))). vm_compute. reflexivity.
Qed.
(** An event stream whose type has parameters. *)
Definition Es124 : env := Eb "text/event-stream; charset=utf-8" (growing sse_doc).
Definition sbody : list fin := [InRespHeaders; InRespBody 28 true].
Example C124_ex : exists e past, reads_body Es124 /\ try_from Es124 (dcfg ex103) = Some (dfac Es124 ex103) /\ serves Es124 (dcfg ex103) (dfac Es124 ex103) (set_of ex103) /\
  has_action Es124 (dcfg ex103) (set_of ex103) (tx "0") (mkT (tx "true") false false false (OpStore (tx "p") (tx "respbody") true)) /\
  parse_expr Es124 (tx "respbody") = Some e /\ ex_ast e = ACall None (tx "responseBodyJSON") [ALit (VString (tx "/a"))] /\
  occurs (f_log (run Es124 (dfac Es124 ex103) sbody)) (EvSetProp [tx "kuadrant.p"] ok_bytes true) (EvEval (tx "0") :: past) /\ exports (VString (tx "ok")) ok_bytes /\
  response_headers Es124 [(tx "content-type", tx "text/event-stream; charset=utf-8")] /\ unchanged past /\ stream_type [(tx "content-type", tx "text/event-stream; charset=utf-8")].
Proof.
  eexists _, (skipn 4 (f_log (run Es124 (dfac Es124 ex103) sbody))). split; [now apply body_demo_reads|]. split; [vm_compute; reflexivity|]. split; [serve|]. split; [acts 0|].
  split; [vm_compute; reflexivity|]. split; [reflexivity|]. split; [exists (firstn 2 (f_log (run Es124 (dfac Es124 ex103) sbody))); vm_compute; reflexivity|].
  split; [apply value_exports; vm_compute; reflexivity|]. split; [intros now; now left|]. split.
  - split; intros y; vm_compute; intuition discriminate.
  - exists [], (tx "text/event-stream; charset=utf-8"), [], [], (tx "; charset=utf-8"). split; [reflexivity|]. split; [intros v []|reflexivity].
Qed.
(** The call is sent once the body has come in, not with the headers. *)
Definition ex104 : list action_cfg := [CTyped (mkT (tx "true") false false false (OpGrpc (tx "r") (tx "soft") (tx "respbody") []))].
Example C104_ex : exists cl past, cel_constants Ej /\ try_from Ej (dcfg ex104) = Some (dfac Ej ex104) /\ serves Ej (dcfg ex104) (dfac Ej ex104) (set_of ex104) /\
  has_action Ej (dcfg ex104) (set_of ex104) (tx "0") (mkT (tx "true") false false false (OpGrpc (tx "r") (tx "soft") (tx "respbody") [])) /\
  asks_for Ej SrcResp (tx "/a") (tx "respbody") /\
  occurs (f_log (run Ej (dfac Ej ex104) [InRespHeaders; InRespBody 6 true])) (EvDispatch (tx "0") cl (Some 0%N)) past /\ (exists e, In e past /\ body_came SrcResp e) /\
  forall id cl' r, ~ In (EvDispatch id cl' r) (f_log (run Ej (dfac Ej ex104) [InRespHeaders])).
Proof.
  eexists _, (skipn 2 (f_log (run Ej (dfac Ej ex104) [InRespHeaders; InRespBody 6 true]))). split; [split; [reflexivity|eexists; reflexivity]|]. split; [vm_compute; reflexivity|]. split; [serve|]. split; [acts 0|].
  split; [eexists; split; [vm_compute; reflexivity|]; exact (as_here SrcResp (tx "/a"))|].
  split; [exists [EvRet true]; vm_compute; reflexivity|].
  split; [exists (EvRespBody 6 true); split; [vm_compute; tauto|exact Logic.I]|].
  intros id cl' r. apply (absent (fun e => match e with EvDispatch _ _ _ => false | _ => true end)); [vm_compute; reflexivity|reflexivity].
Qed.
