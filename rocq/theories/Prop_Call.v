(** C97: what is sent to services. *)
From Coq Require Import String Ascii List NArith ZArith Bool Lia Arith.
From Verif Require Import Base Value Headers AttrPath Ctx CelProps CelEval Sse Body ValueBytes Tasks Exec Config Legacy Blueprint Factory Filter
  P_Frame P_Apply P_Exec P_Run P_Inv P_Ids P_Plan P_Deps P_Order P_Term P_Bar P_Cfg P_Hist P_Grow P_Wake P_Fail P_Head P_Told P_Eff P_Rid Demo DemoCfg
  Prop_Headers Prop_Order Prop_Term Prop_Guard Prop_Wake Prop_Fail Prop_Know Prop_Eff Prop_Writes.
Import ListNotations.
Open Scope list_scope.

(** * Specifications *)
(** the method of the service configured as [sc] *)
Definition method_of (sc : svc_cfg) (service method : text) : Prop :=
  match sc_type sc with
  | SAuth => service = tx "envoy.service.auth.v3.Authorization" /\ method = tx "Check"
  | SRateLimit => service = tx "envoy.service.ratelimit.v3.RateLimitService" /\ method = tx "ShouldRateLimit"
  | SRateLimitCheck => service = tx "kuadrant.service.ratelimit.v1.RateLimitService" /\ method = tx "CheckRateLimit"
  | SRateLimitReport => service = tx "kuadrant.service.ratelimit.v1.RateLimitService" /\ method = tx "Report"
  | SDynamic => sc_grpc_service sc = Some service /\ sc_grpc_method sc = Some method
  | STracing => False
  end.
(** the call goes to the service configured as [sc] *)
Definition goes_to (sc : svc_cfg) (cl : call) : Prop :=
  cl_upstream cl = sc_endpoint sc /\ cl_timeout cl = sc_timeout sc /\ method_of sc (cl_service cl) (cl_method cl).
(** the service that a call went to *)
Definition callee (cl : call) (deny : bool) : svc := mkSvc (cl_upstream cl) (cl_service cl) (cl_method cl) (cl_timeout cl) deny.

Lemma inst_method sc k sv : inst_of sc = Some (IDyn k sv) ->
  sv_upstream sv = sc_endpoint sc /\ sv_timeout sv = sc_timeout sc /\ sv_deny sv = sc_deny sc /\ method_of sc (sv_service sv) (sv_method sv).
Proof.
  unfold inst_of, method_of. destruct (sc_type sc); intros H; try (injection H as <- <-; cbn; repeat split; reflexivity); try discriminate.
  destruct (sc_grpc_service sc) as [x|]; [|discriminate]. destruct (sc_grpc_method sc) as [y|]; [|discriminate]. injection H as <- <-. cbn. repeat split; reflexivity.
Qed.

(** * C97 *)
(** Every call is made when a configured call action is evaluated whose condition holds at that
    moment.  It goes to the service the action names, at the configured address and with the
    configured timeout; what is sent is the encoding of the value the action's message has at
    that moment.  (Otherwise it is the dev-mode tracker's, whose message is the literal [true].) *)
Theorem C97_calls_say_what_was_configured : forall E cfg fa s l a cl r past,
  cel_constants E -> try_from E cfg = Some fa -> serves E cfg fa s -> later l ->
  occurs (f_log (run E fa l)) (EvDispatch a cl r) past ->
  (exists past', past = EvEval a :: past') /\ h_dispatch E past cl = r /\
  ((exists c tm g sq var name msg rs sc v, has_action E cfg s a (mkT c tm g sq (OpGrpc var name msg rs)) /\
      evaluates E cfg s a c (VBool true) past /\ evaluates E cfg s a msg v past /\
      tget name (pc_services cfg) = Some sc /\ goes_to sc cl /\
      o_encode E past (callee cl (sc_deny sc)) v = Some (cl_msg cl)) \/
   (a = dev_id /\ exists deny, o_encode E past (callee cl deny) (VBool true) = Some (cl_msg cl))).
Proof.
  intros E cfg fa s l a cl r past HC Hf Hs Hl Ho. destruct (pipe_or_not E fa) as [(pp & Hb)|Hn].
  2:{ exfalso. destruct (no_pipe_replies E fa l Hn Hl) as [H _]. rewrite occurs_hist in H. exact (H _ _ Ho). }
  destruct (F_log _ _ _ _ _ _ (F_run_filter E fa pp l Hb Hl)) as [H _]. rewrite occurs_hist in H. specialize (H _ _ Ho). cbn [eff] in H.
  destruct H as [Hp (sv & var & g & kids & msg & pred & deps & v & H1 & H2 & Hpv & Hv & He & A1 & A2 & A3 & A4 & Hd)].
  split; [exact Hp|]. split; [exact Hd|].
  assert (Hcl : forall d, d = sv_deny sv -> callee cl d = sv) by (intros d ->; unfold callee; rewrite A1, A2, A3, A4; now destruct sv).
  destruct (serves_nodes _ _ _ _ _ Hs Hb _ H1) as [(svs & a' & [c tm g' sq op] & Hsv & Hc & Hds)|Hds].
  - left. destruct Hds as (pe & Hpe & Hds). destruct op; try easy. destruct Hds as (<- & -> & -> & (k & Hk) & _).
    pose proof (action_node E cfg fa s pp svs a _ _ _ _ _ Hsv Hs Hb Hc _ H2 eq_refl) as Hds. destruct Hds as (pe' & Hpe' & _ & -> & Hm).
    destruct (svs_service cfg svs service Hsv) as [S1 _]. rewrite Hk in S1. destruct (tget service (pc_services cfg)) as [sc|] eqn:Hsc; [|discriminate].
    symmetry in S1. destruct (inst_method _ _ _ S1) as (I1 & I2 & I3 & I4).
    exists c, tm, g', sq, var0, service, message, on_reply, sc, v. assert (Ha : has_action E cfg s a (mkT c tm g' sq (OpGrpc var0 service message on_reply))) by now exists svs.
    split; [exact Ha|]. split; [eapply pred_told; eauto|]. split; [eapply message_told; [exact Hs|exact Ha|now right; left|exact Hm|exact Hv]|]. split; [exact Hsc|].
    split; [unfold goes_to; rewrite A1, A2, A3, A4, I1, I2; now repeat split|]. now rewrite Hcl.
  - right. destruct Hds as (-> & _). split; [reflexivity|]. exists (sv_deny sv). rewrite Hcl by reflexivity.
    destruct (serves_nodes _ _ _ _ _ Hs Hb _ H2) as [(svs & a' & x & Hsv & Hc & Hds)|Hds].
    + exfalso. apply (configured_not_dev svs (cfg_rsrc E cfg) s x). replace dev_id with a'; [exact Hc|]. destruct x as [? ? ? ? o]. destruct Hds as (pe & _ & Hds). now destruct o.
    + cbn in Hds. destruct Hds as (_ & -> & _). destruct Hv as (c0 & c & vs' & vs0 & c' & _ & _ & _ & _ & Hv). change (o_cel E past (ALit (VBool true)) vs0 = Some v) in Hv. rewrite (proj1 (HC past vs0)) in Hv. now injection Hv as <-.
Qed.
Print Assumptions C97_calls_say_what_was_configured.
(** a reply action calls another service *)
Definition ex97 : list action_cfg := [dcall "hard" false [mkT (tx "true") false true false (OpGrpc (tx "q") (tx "auth") (tx "reply") [])]].
Example C97_ex : cel_constants Ed /\ try_from Ed (dcfg ex97) = Some (dfac Ed ex97) /\ serves Ed (dcfg ex97) (dfac Ed ex97) (set_of ex97) /\ later [InGrpc 0 0 3] /\
  exists cl past, occurs (dlog Ed ex97 [InGrpc 0 0 3]) (EvDispatch (tx "0.0") cl (Some 1%N)) past /\ cl_upstream cl = tx "authorino" /\ cl_service cl = tx "envoy.service.auth.v3.Authorization".
Proof.
  split; [split; [reflexivity|eexists; reflexivity]|]. split; [vm_compute; reflexivity|]. split; [serve|]. split; [intros [H|[]]; discriminate|].
  do 2 eexists. split; [exists []; vm_compute; reflexivity|]. split; reflexivity.
Qed.
