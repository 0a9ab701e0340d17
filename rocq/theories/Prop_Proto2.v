(** C121 on the deployed environment: what services read, and what is read of their answers. *)
From Coq Require Import String Ascii List NArith ZArith Bool Lia Arith.
From Verif Require Conv Prop_Conv Prop_Conv2 Prop_Conv3 Proto P_Proto Prop_Proto.
From Verif Require Import Base Value Headers AttrPath Ctx CelProps CelEval Sse Body ValueBytes Tasks Exec Config Legacy Blueprint Factory Filter Deploy
  P_Frame P_Apply P_Exec P_Run P_Inv P_Ids P_Plan P_Deps P_Order P_Term P_Bar P_Cfg P_Hist P_Grow P_Wake P_Fail P_Head P_Told P_Eff P_Rid P_Scope Demo DemoCfg
  Prop_Headers Prop_Order Prop_Term Prop_Guard Prop_Wake Prop_Fail Prop_Know Prop_Eff Prop_Scope Prop_Reply Prop_Writes Prop_Call Prop_Deploy.
Import ListNotations.
Open Scope list_scope.

(** messages are written in the wire format, and read *)
Definition on_the_wire (W : Proto.wenv) (D : protos) : Prop :=
  (forall p n m, d_write D p n m = Proto.write_message W p n m) /\ (forall p n b, d_read D p n b = Proto.read_message W p n b).

(** C121 for calls: a service that reads the bytes of the call has the value of the action's message *)
Theorem C121_services_read_the_value_partial : forall K D E0 W cfg fa s l a cl r past,
  let E := deployed K D E0 in
  on_the_wire W D -> cel_constants E -> try_from E cfg = Some fa -> serves E cfg fa s -> later l ->
  occurs (f_log (run E fa l)) (EvDispatch a cl r) past ->
  exists c tm g sq var name msg rs n' fs p n o,
    has_action E cfg s a (mkT c tm g sq (OpGrpc var name msg rs)) /\ evaluates E cfg s a msg (VStruct n' fs) past /\
    method_types D past (cl_upstream cl) (cl_service cl) (cl_method cl) p n o /\
    forall d, n' = n -> Prop_Conv.good p -> Prop_Conv3.oneofs_ok p -> Prop_Proto.wire_schema W p -> Conv.lookup p n = Some d -> Prop_Conv.complete d fs ->
      (forall g v, In g (Conv.md_fields d) -> tget (Conv.fd_name g) fs = Some v -> Prop_Conv.fits (d_conv D) p true g v) ->
      Prop_Proto.tidy W (d_conv D) (Proto.w_depth W) (VStruct n' fs) -> P_Proto.small (cl_msg cl) ->
      exists m v', Proto.read_message W p n (cl_msg cl) = Some m /\ Conv.message_to_cel (d_conv D) p n m = Some v' /\ Prop_Conv.same (VStruct n' fs) v'.
Proof.
  intros K D E0 W cfg fa s l a cl r past E [Hw _] HC Hf Hs Hl Ho.
  destruct (calls_carry K D E0 cfg fa s l a cl r past HC Hf Hs Hl Ho) as (c & tm & g & sq & var & name & msg & rs & n' & fs & p & n & o & m & Ha & Hv & Hm & Hwr & Hc).
  exists c, tm, g, sq, var, name, msg, rs, n', fs, p, n, o. split; [exact Ha|]. split; [exact Hv|]. split; [exact Hm|]. intros d -> G Hoo HS Hl' Hcm Hfit Htd Hsm.
  destruct (Prop_Conv.C65_messages_survive (d_conv D) p n d fs G Hl' Hcm Hfit) as (m' & v' & H1 & H2 & H3). rewrite Hc in H1. injection H1 as <-.
  pose proof (Prop_Proto.value_wire W (d_conv D) p n d n fs m G Hl' Hfit Htd Hc) as Hwm. rewrite Hw in Hwr. rewrite Hwr in *.
  destruct (Prop_Proto.C121_read_as_the_same_value_partial (d_conv D) W p n m HS Hoo Hwm Hsm) as (m2 & R1 & R2). exists m2, v'. split; [exact R1|]. split; [congruence|exact H3].
Qed.
Print Assumptions C121_services_read_the_value_partial.

(** C121 for answers: what reply actions see is the message the service has sent *)
Theorem C121_answers_are_what_was_sent_partial : forall K D E0 W cfg fa s l a pr tm g sq var name msg rs sc k sz p o m service method n,
  let E := deployed K D E0 in
  on_the_wire W D -> fresh_tokens E -> try_from E cfg = Some fa -> serves E cfg fa s -> later l ->
  has_action E cfg s a (mkT pr tm g sq (OpGrpc var name msg rs)) -> tget name (pc_services cfg) = Some sc ->
  ~ terminated (f_log (run E fa l)) -> call_open (f_log (run E fa l)) k a ->
  let now := EvEval a :: EvHandle k a :: EvGrpcResp k 0 sz :: f_log (run E fa l) in
  let b := Proto.write_message W p o m in
  method_of sc service method -> method_types D now (sc_endpoint sc) service method p n o -> k_buffer K now BGrpc 0 sz = HcOk (Some b) -> sz = N.of_nat (length b) -> sz <> 0%N ->
  Prop_Conv.good p -> Prop_Conv3.standard p -> Prop_Conv3.oneofs_ok p -> Prop_Proto.wire_schema W p -> Prop_Proto.wire_message W p o m -> P_Proto.small b ->
  (forall k w, In (k, w) m -> Prop_Conv3.times (d_conv D) w) ->
  exists after sv v, f_log (run E fa (l ++ [InGrpc k 0 sz])) = after ++ now /\ in_order (reply_ids a rs) after /\
    Conv.message_to_cel (d_conv D) p o m = Some v /\
    (exists kd, inst_of sc = Some (IDyn kd sv)) /\ got_reply E sv a v (f_log (run E fa (l ++ [InGrpc k 0 sz]))).
Proof.
  intros K D E0 W cfg fa s l a pr tm g sq var name msg rs sc k sz p o m service method n E [_ HR] F Hf Hs Hl Ha Hsc Ht Ho now b Hm Hmt Hb _ Hz G St Hoo HS Hwm Hsm Htm.
  destruct (Prop_Proto.wire_message_conforms W p o m Hwm) as (d & Hd & Hc).
  destruct (Prop_Conv3.C85_replies_can_be_read_partial (d_conv D) p o d m G St Hd Hc Htm) as (v & Hv).
  destruct (Prop_Proto.C121_read_as_the_same_value_partial (d_conv D) W p o m HS Hoo Hwm Hsm) as (m2 & R1 & R2). fold b in R1. rewrite <- HR in R1. rewrite Hv in R2.
  destruct (answers_used K D E0 cfg fa s l a pr tm g sq var name msg rs sc k sz p o m2 service method n b v F Hf Hs Hl Ha Hsc Ht Ho Hm Hmt Hb R1 R2 Hz) as (after & sv & H1 & H2 & H3 & H4).
  exists after, sv, v. auto.
Qed.
Print Assumptions C121_answers_are_what_was_sent_partial.

(** * A deployment on the wire *)
Definition Wd : Proto.wenv := Prop_Proto.Wp Prop_Conv3.wkt true.
Definition Dw : protos := mkProtos
  (fun _ _ _ => Some (mkPool Prop_Conv3.wkt [(tx "S", [(tx "M", (tx "M", tx "M"))])])) Prop_Conv3.Ct (Proto.write_message Wd) (Proto.read_message Wd).
Definition answer_b : text := Proto.write_message Wd Prop_Conv3.wkt (tx "M") Prop_Conv3.reply_m.
Definition Ew : env := deployed (Kd answer_b) Dw (e_parse Ed (fun s => if text_eqb s (tx "msg") then Some (ALit (VStruct (tx "M") req_m)) else parse_demo s)).
Lemma Ew_fresh : fresh_tokens Ew.
Proof. intros l c k [= <-] H. apply next_token_above in H. lia. Qed.
(** the call carries the two bytes of [n = 7], the empty list leaving none *)
Example C121_call_ex : on_the_wire Wd Dw /\ cel_constants Ew /\ try_from Ew (dcfg ex99) = Some (dfac Ew ex99) /\ serves Ew (dcfg ex99) (dfac Ew ex99) (set_of ex99) /\ later [] /\
  (exists cl past, occurs (dlog Ew ex99 []) (EvDispatch (tx "0") cl (Some 0%N)) past /\ map N_of_ascii (cl_msg cl) = [24; 7]%N /\ P_Proto.small (cl_msg cl)) /\
  Prop_Conv.good Prop_Conv3.wkt /\ Prop_Conv3.oneofs_ok Prop_Conv3.wkt /\ Prop_Proto.wire_schema Wd Prop_Conv3.wkt /\
  exists d, Conv.lookup Prop_Conv3.wkt (tx "M") = Some d /\ Prop_Conv.complete d req_m /\
  (forall g v, In g (Conv.md_fields d) -> tget (Conv.fd_name g) req_m = Some v -> Prop_Conv.fits (d_conv Dw) Prop_Conv3.wkt true g v) /\
  Prop_Proto.tidy Wd (d_conv Dw) (Proto.w_depth Wd) (VStruct (tx "M") req_m).
Proof.
  split; [split; reflexivity|]. split; [split; [reflexivity|eexists; reflexivity]|]. split; [vm_compute; reflexivity|]. split; [serve|]. split; [now intros []|].
  split; [do 2 eexists; split; [exists [EvRet true]; vm_compute; reflexivity|split; vm_compute; reflexivity]|].
  split; [exact Prop_Conv3.wkt_good|]. split; [exact Prop_Proto.wkt_oneofs|]. split; [apply Prop_Proto.wkt_wire|].
  destruct C98_ex as (_ & _ & _ & _ & _ & _ & d & Hd & Hc & Hfit). exists d. split; [exact Hd|]. split; [exact Hc|]. split; [exact Hfit|].
  change (Proto.w_depth Wd) with (S 100). apply Prop_Proto.td_struct. intros x v [H|[H|[]]]; injection H as <- <-; [apply Prop_Proto.td_leaf; easy|now apply Prop_Proto.td_list].
Qed.
Example C121_answer_ex : on_the_wire Wd Dw /\ fresh_tokens Ew /\ try_from Ew (dcfg ex99) = Some (dfac Ew ex99) /\ serves Ew (dcfg ex99) (dfac Ew ex99) (set_of ex99) /\ later [] /\
  has_action Ew (dcfg ex99) (set_of ex99) (tx "0") call99 /\ tget (tx "hard") (pc_services (dcfg ex99)) = Some (dsvc true) /\
  ~ terminated (dlog Ew ex99 []) /\ call_open (dlog Ew ex99 []) 0 (tx "0") /\
  (let now := EvEval (tx "0") :: EvHandle 0 (tx "0") :: EvGrpcResp 0 0 21 :: dlog Ew ex99 [] in
   method_of (dsvc true) (tx "S") (tx "M") /\ method_types Dw now (sc_endpoint (dsvc true)) (tx "S") (tx "M") Prop_Conv3.wkt (tx "M") (tx "M") /\
   k_buffer (Kd answer_b) now BGrpc 0 21 = HcOk (Some answer_b)) /\ N.of_nat (length answer_b) = 21%N /\ P_Proto.small answer_b /\
  Prop_Conv3.standard Prop_Conv3.wkt /\ Prop_Proto.wire_message Wd Prop_Conv3.wkt (tx "M") Prop_Conv3.reply_m /\
  (forall k w, In (k, w) Prop_Conv3.reply_m -> Prop_Conv3.times (d_conv Dw) w) /\
  evaluated (dlog Ew ex99 [InGrpc 0 0 21]) = [tx "0"; tx "0"; tx "0.0"].
Proof.
  split; [split; reflexivity|]. split; [apply Ew_fresh|]. split; [vm_compute; reflexivity|]. split; [serve|]. split; [now intros []|]. split; [acts 0|].
  split; [vm_compute; reflexivity|]. split; [apply no_end_spec; vm_compute; reflexivity|]. split; [apply call_open_spec; vm_compute; tauto|].
  split; [split; [split; reflexivity|split; [do 2 eexists; split; [reflexivity|]; split; [reflexivity|]; split; reflexivity|reflexivity]]|].
  split; [vm_compute; reflexivity|]. split; [vm_compute; reflexivity|]. split; [exact Prop_Conv3.wkt_standard|]. split; [apply Prop_Proto.reply_wire|].
  split; [|vm_compute; reflexivity]. destruct Prop_Conv3.C85_ex as (_ & _ & _ & Ht & _). exact Ht.
Qed.
