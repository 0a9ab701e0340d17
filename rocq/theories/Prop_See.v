(** C102: expressions that select an attribute or a field of a reply. *)
From Coq Require Import String Ascii List NArith ZArith Bool Lia Arith.
From Verif Require Import Base Value Headers AttrPath Ctx CelProps CelEval Sse Body ValueBytes Tasks Exec Config Legacy Blueprint Factory Filter
  P_Frame P_Apply P_Exec P_Run P_Inv P_Ids P_Plan P_Deps P_Order P_Term P_Bar P_Cfg P_Hist P_Grow P_Wake P_Fail P_Head P_Told P_Eff P_Rid P_Eval P_Props Demo DemoCfg
  Prop_Order Prop_Term Prop_Guard Prop_Wake Prop_Fail Prop_Eval Prop_Know Prop_Eff Prop_Writes.
From Verif Require Prop_Decode.
Import ListNotations.
Open Scope list_scope.

(** * Specifications *)
(** [e] is the variable [p0] followed by the selections [.p1.p2…], and not [has()] of one *)
Inductive picks : ast -> path -> Prop :=
| pk_id n : picks (AIdent n) [n]
| pk_sel e p f : picks e p -> picks (ASelect e f false) (p ++ [f]).
(** [v] is what one gets from [w] by selecting the fields [q] one after the other *)
Inductive gets : path -> value -> value -> Prop :=
| ge_here v : gets [] v v
| ge_map f q m w v : mget f m = Some w -> gets q w v -> gets (f :: q) (VMap m) v
| ge_struct f q n fs w v : tget f fs = Some w -> gets q w v -> gets (f :: q) (VStruct n fs) v.
(** what CEL says about selections: the value of [t.f.g…] is found by selecting the fields in the variable [t] *)
Definition selects_fields (E : env) : Prop :=
  forall past vs e t q v, picks e (t :: q) -> o_cel E past e vs = Some v -> exists w, tget t vs = Some w /\ gets q w v.
(** In the history [past], the selection [p] in an expression of the action [a] means [v]: the field of an attribute
    known by then; or the field of the innermost reply with the name it starts with, of the calls [a] is nested in. *)
Definition means (E : env) (cfg : plugin_cfg) (s : action_set) (a : text) (p : path) (v : value) (past : log) : Prop :=
  (exists q more w, p = q ++ more /\ known E cfg s q w past /\ gets more w v) \/
  (is_host_root (hd [] p) = false /\ hd [] p <> tx "auth" /\ forall y, has_action E cfg s a y -> clean_action E y ->
     exists b x w, answers E cfg s past a y b x (hd [] p) w /\ gets (tl p) w v /\
       forall b' x' v', answers E cfg s past a y b' x' (hd [] p) v' -> within b' x' b x).

(** * Lemmas *)
Lemma picks_chain e p : picks e p -> chain e p. Proof. induction 1; now constructor. Qed.
Lemma chain_nonempty e p : chain e p -> p <> [].
Proof. intros H. destruct H; [discriminate|]. now destruct q. Qed.
Lemma chain_names e p : chain e p -> forall n, name_in e n -> In n p.
Proof.
  induction 1 as [n|e q f b0 Hc IH]; intros n' Hn; inversion Hn; subst; try (match goal with H : sub _ _ |- _ => inversion H; subst end).
  - now left.
  - apply in_or_app. right. now left.
  - apply in_or_app. left. now apply IH.
Qed.
Lemma chain_tidy e p : chain e p -> tidy e.
Proof.
  induction 1 as [n|e q f b0 Hc IH]; constructor; try (intros; discriminate).
  - intros x Hx. inversion Hx.
  - intros x g b1 [= <- <- <-]. constructor. now exists q.
  - intros x Hx. inversion Hx; subst. exact IH.
Qed.
Lemma chain_mentions e p : chain e p -> length p >= 2 -> mentions e p.
Proof. intros H Hl. destruct H as [n|e q f b0 Hc]; [cbn in Hl; lia|now constructor]. Qed.
Lemma vlook_gets q : forall w x more v, vlook q w = Some x -> gets (q ++ more) w v -> gets more x v.
Proof.
  induction q as [|t q IH]; intros w x more v Hx Hg; [now injection Hx as <-|]. cbn [vlook] in Hx. destruct w; try discriminate.
  cbn [app] in Hg. inversion Hg; subst. match goal with H : mget t _ = Some _ |- _ => rewrite H in Hx end. eapply IH; eauto.
Qed.

(** * C102 *)
Theorem C102_selections_mean_what_was_supplied : forall E cfg s a x v past e p,
  selects_fields E -> evaluates E cfg s a x v past -> parse_expr E x = Some e -> picks (ex_ast e) p ->
  length p >= 2 -> Forall clean_name p -> bindable p -> ~ stores E cfg s (tx "request") -> hd [] p <> tx "auth" ->
  means E cfg s a p v past.
Proof.
  intros E cfg s a x v past e p HC Hev Hx Hpk Hlen Hcl Hb Hns Hau. inversion Hev as [a' x' v' past' e' vs Hp Ho Hatt _]; subst. assert (e' = e) as -> by congruence.
  pose proof (picks_chain _ _ Hpk) as Hch. assert (Hclean : clean (ex_ast e)) by (intros n Hn; rewrite Forall_forall in Hcl; apply Hcl; eapply chain_names; eauto).
  destruct p as [|t r]; [easy|]. destruct (HC _ _ _ _ _ _ Hpk Ho) as (w0 & Hw0 & Hg).
  destruct (Hatt Hclean (chain_tidy _ _ Hch) (t :: r) (chain_mentions _ _ Hch Hlen) Hb (fun _ => Hns)) as [(q & more & w & Heq & Hsee & Hk)|(Hr & Hrep)].
  - left. exists q, more, w. split; [exact Heq|]. split; [exact Hk|]. destruct q as [|t' q]; [easy|]. injection Heq as <- ->. destruct Hsee as (w1 & Hw1 & Hl).
    assert (w1 = w0) as -> by congruence. eapply vlook_gets; eauto.
  - right. cbn [hd tl] in *. split; [exact Hr|]. split; [exact Hau|]. intros y Hy Hcy. destruct (text_eqb t (tx "auth")) eqn:Ha; [apply text_eqb_eq in Ha; contradiction|].
    specialize (Hrep y Hy Hcy). rewrite Hw0 in Hrep. destruct Hrep as (b & x' & H1 & H2). exists b, x', w0. auto.
Qed.
Print Assumptions C102_selections_mean_what_was_supplied.
(** So a store action that exports such a selection exports the value the host, a store action or a
    service gave for it. *)
Theorem C102_exported_selections : forall E cfg fa s l a c tm g sq path x e p hp bytes ok past,
  selects_fields E -> try_from E cfg = Some fa -> serves E cfg fa s -> later l ->
  has_action E cfg s a (mkT c tm g sq (OpStore path x true)) ->
  parse_expr E x = Some e -> picks (ex_ast e) p -> length p >= 2 -> Forall clean_name p -> bindable p -> ~ stores E cfg s (tx "request") -> hd [] p <> tx "auth" ->
  occurs (f_log (run E fa l)) (EvSetProp hp bytes ok) (EvEval a :: past) ->
  exported_as path hp /\ exists v, means E cfg s a p v (EvEval a :: past) /\ exports v bytes.
Proof.
  intros E cfg fa s l a c tm g sq path x e p hp bytes ok past HC Hf Hs Hl Hy Hx Hch Hlen Hcl Hb Hns Hau Ho.
  destruct (C94_properties_come_from_store_actions _ _ _ _ _ _ _ _ _ Hf Hs Hl Ho) as (a' & past' & c' & tm' & g' & sq' & path' & x' & v & [= <- <-] & Hy' & _ & Hv & He & Hn).
  assert (Hu : mkT c tm g sq (OpStore path x true) = mkT c' tm' g' sq' (OpStore path' x' true)).
  { destruct Hy as (svs & S1 & Hy), Hy' as (svs' & S2 & Hy'). assert (svs' = svs) as -> by congruence. eapply configured_unique; eauto. }
  injection Hu as <- <- <- <- <- <-. split; [exact Hn|]. exists v. split; [|exact He]. eapply C102_selections_mean_what_was_supplied; eauto.
Qed.
Print Assumptions C102_exported_selections.

(** * Examples *)
Lemma cel0_selects vs e p : picks e p -> forall n v, cel0 n vs e = Some v -> match p with t :: q => exists w, tget t vs = Some w /\ gets q w v | [] => False end.
Proof.
  induction 1 as [x|e p f Hc IH]; intros [|n] v; cbn [cel0]; try discriminate; [intros H; exists v; split; [exact H|constructor]|].
  destruct (cel0 n vs e) as [w0|] eqn:He; [|discriminate]. intros H. specialize (IH n w0 He). destruct p as [|t q]; [easy|]. cbn [app]. destruct IH as (w & Hw & Hg).
  exists w. split; [exact Hw|]. clear - Hg H. induction Hg as [v0|f' q m w v0 H1 _ IH|f' q nm fs w v0 H1 _ IH]; cbn [app].
  - destruct v0; try discriminate; econstructor; try exact H; constructor.
  - econstructor; [exact H1|now apply IH].
  - econstructor; [exact H1|now apply IH].
Qed.
Lemma demo_selects E n : (forall past a vs, o_cel E past a vs = cel0 n vs a) -> selects_fields E.
Proof. intros HE past vs e t q v Hch Ho. rewrite HE in Ho. exact (cel0_selects _ _ _ Hch n v Ho). Qed.
(** [request.host] is exported *)
Definition Es : env := e_parse Ed (fun x => if text_eqb x (tx "request.host") then Some (ASelect (AIdent (tx "request")) (tx "host") false) else parse_demo x).
Definition ex102 : list action_cfg := [CTyped (mkT (tx "true") false false true (OpStore (tx "auth.host") (tx "request.host") true))].
Example C102_ex : exists e p bytes past, selects_fields Es /\ try_from Es (dcfg ex102) = Some (dfac Es ex102) /\ serves Es (dcfg ex102) (dfac Es ex102) (set_of ex102) /\
  has_action Es (dcfg ex102) (set_of ex102) (tx "0") (mkT (tx "true") false false true (OpStore (tx "auth.host") (tx "request.host") true)) /\
  parse_expr Es (tx "request.host") = Some e /\ picks (ex_ast e) p /\ length p >= 2 /\ Forall clean_name p /\ bindable p /\ ~ stores Es (dcfg ex102) (set_of ex102) (tx "request") /\ hd [] p <> tx "auth" /\
  occurs (f_log (run Es (dfac Es ex102) [])) (EvSetProp [tx "kuadrant.auth.host"] bytes true) (EvEval (tx "0") :: past) /\ exports (VString (tx "h")) bytes.
Proof.
  exists (expr_of (ASelect (AIdent (tx "request")) (tx "host") false)), [tx "request"; tx "host"], [ascii_of_nat 26; ascii_of_nat 1; "h"%char], [EvMetric MHits; EvReqHeaders].
  split; [apply (demo_selects _ 50); reflexivity|]. split; [vm_compute; reflexivity|]. split; [serve|]. split; [acts 0|]. split; [vm_compute; reflexivity|].
  split; [apply (pk_sel (AIdent (tx "request")) [tx "request"]); constructor|]. split; [cbn; lia|].
  split; [repeat constructor; try discriminate; cbn; intuition discriminate|].
  split; [split; [reflexivity|]; right; right; split; [reflexivity|discriminate]|].
  split.
  { intros (b & pr & tm & g & sq & x & export & svs & Hsv & (i & cf & t & H1 & H2 & H3)). destruct i as [|i]; [|destruct i; discriminate]. cbn in H1. injection H1 as <-. cbn in H2. injection H2 as <-.
    inversion H3. }
  split; [discriminate|]. split; [exists (firstn 2 (f_log (run Es (dfac Es ex102) []))); vm_compute; reflexivity|]. apply value_exports. vm_compute. reflexivity.
Qed.
