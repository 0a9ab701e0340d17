(** C54, C55: the CEL source generated for legacy actions. *)
From Coq Require Import String List NArith Bool Ascii Lia.
From Verif Require Import Base Ctx Config Legacy CelSyn P_CelSyn.
Import ListNotations.
Open Scope list_scope.

(** * C54: no text breaks out of a literal *)

(** C54: wherever a token may begin, an escaped text in quotes is one literal with that value *)
Theorem C54_escaped_text_is_one_literal s before tb after : lrun LS before = Some (tb, LS) -> hd_error after <> Some "034"%char ->
  lex (before ++ quoted s ++ after) = option_map (fun ta => tb ++ TkStr s :: ta) (lex after).
Proof.
  intros Hb Ha. unfold lex. rewrite lrun_app, Hb, lrun_app. destruct s as [|x s].
  - change (lrun LS (quoted [])) with (Some (@nil token, LQ2 (mkSm false false DQ))). destruct after as [|a l]; [cbn; now rewrite ?app_nil_r|].
    cbn [lrun lstep]. replace (Ascii.eqb a (sm_quote (mkSm false false DQ))) with false; [|symmetry; apply Ascii.eqb_neq; cbn; intros ->; now apply Ha].
    unfold andthen. destruct (start a) as [[t1 s1]|]; [|reflexivity]. destruct (lrun s1 l) as [[t2 s2]|]; [|reflexivity]. destruct (lend s2) as [te|]; [|reflexivity]. cbn [option_map app literal sm_bytes]. rewrite <- !app_assoc. cbn [app]. now rewrite <- !app_assoc.
  - pose proof (quoted_run (x :: s)) as Hq. unfold frag in Hq. rewrite Hq by discriminate. destruct (lrun LS after) as [[t2 s2]|]; [|reflexivity]. destruct (lend s2); [|reflexivity]. cbn. now rewrite <- !app_assoc.
Qed.
(** so the value of the literal is the text, and different texts stay different *)
Theorem C54_literal_has_the_text_as_value s : parses (quoted s) (TrStr s).
Proof. exists [TkStr s], 10. split; [exact (tokens_lex _ _ (quoted_tokens s))|reflexivity]. Qed.

Definition nasty : text := [DQ] ++ tx " + x + " ++ [DQ; BSL; DQ; "010"%char; "013"%char; BSL].
Example C54_ex : lex (tx "{key: " ++ quoted nasty ++ tx ", v: 1}") =
  Some [TkP PLC; TkId (tx "key"); TkP PColon; TkStr nasty; TkP PComma; TkId (tx "v"); TkP PColon; TkNum (tx "1"); TkP PRC] /\
  lrun LS (tx "{key: ") = Some ([TkP PLC; TkId (tx "key"); TkP PColon], LS).
Proof. split; reflexivity. Qed.

(** * C55: predicates *)

(** what is needed of a logic; true of two-valued logic and of CEL's with errors *)
Record lawful (G : logic) : Prop := {
  lw_and : forall a b c, lg_and G a (lg_and G b c) = lg_and G (lg_and G a b) c;
  lw_or : forall a b c, lg_or G a (lg_or G b c) = lg_or G (lg_or G a b) c;
  lw_and_true : forall a, lg_and G a (lg_true G) = a;
  lw_true_and : forall a, lg_and G (lg_true G) a = a;
  lw_or_false : forall a, lg_or G a (lg_false G) = a }.
Definition all_of (G : logic) (l : list (lg_t G)) : lg_t G := fold_right (lg_and G) (lg_true G) l.
Definition any_of (G : logic) (l : list (lg_t G)) : lg_t G := fold_right (lg_or G) (lg_false G) l.
Definition two : logic := mkLogic bool true false andb orb negb (fun c a b => if c then a else b).
(** with errors ([None]): one operand can decide alone *)
Definition three : logic := mkLogic (option bool) (Some true) (Some false)
  (fun a b => match a, b with Some false, _ | _, Some false => Some false | Some true, Some true => Some true | _, _ => None end)
  (fun a b => match a, b with Some true, _ | _, Some true => Some true | Some false, Some false => Some false | _, _ => None end)
  (option_map negb) (fun c a b => match c with Some true => a | Some false => b | None => None end).
(** with errors, evaluated from the left *)
Definition left_to_right : logic := mkLogic (option bool) (Some true) (Some false)
  (fun a b => match a with Some true => b | _ => a end) (fun a b => match a with Some false => b | _ => a end)
  (option_map negb) (fun c a b => match c with Some true => a | Some false => b | None => None end).
Lemma two_lawful : lawful two.
Proof. split; cbn; now intros [] *; try intros [] *. Qed.
Lemma three_lawful : lawful three.
Proof. split; cbn; repeat (intros [[]|] || intros ?); repeat match goal with x : option bool |- _ => destruct x as [[]|] end; reflexivity. Qed.
Lemma left_to_right_lawful : lawful left_to_right.
Proof. split; cbn; repeat (intros [[]|] || intros ?); repeat match goal with x : option bool |- _ => destruct x as [[]|] end; reflexivity. Qed.

(** an expression whose text does not end in a comment *)
Definition clean_end (s : text) : Prop := forall ts, lrun LS s <> Some (ts, LCom).
Definition wf (s : text) (t : tree) : Prop := parses s t /\ clean_end s.
(** not a conditional, unless in parentheses *)
Definition no_conditional (s : text) : Prop := forall ts, lex s = Some ts -> exists t, derive (GBin VOr) ts t [].

Lemma wf_tokens s t : wf s t -> exists ts, tokens s ts /\ derive GExpr ts t [].
Proof.
  intros [Hp Hc]. apply parses_spec in Hp as (ts & Hl & Hd). exists ts. split; [|exact Hd]. unfold lex in Hl. destruct (lrun LS s) as [[t0 st]|] eqn:E; [|discriminate].
  destruct (lend st) as [te|] eqn:E2; [|discriminate]. injection Hl as <-. exists t0, st, te. repeat split; auto. intros ->. now apply (Hc t0).
Qed.
Lemma tokens_wf s ts t : tokens s ts -> derive GExpr ts t [] -> wf s t.
Proof.
  intros Ht Hd. split; [apply parses_spec; exists ts; split; [now apply tokens_lex|exact Hd]|]. destruct Ht as (t0 & st & te & H1 & _ & H3 & _). intros u Hu. congruence.
Qed.
Lemma wf_parses s t : wf s t -> parses s t.
Proof. now intros []. Qed.
Lemma true_wf : wf (tx "true") (TrId (tx "true")).
Proof. apply (tokens_wf _ [TkId (tx "true")]); [exists [], (LId (tx "true")), [TkId (tx "true")]; repeat split; discriminate|exists 10; reflexivity]. Qed.

Definition ptoks (ts : list token) : list token := TkP PLP :: ts ++ [TkP PRP].
Lemma paren_tokens s ts : tokens s ts -> frag (paren s) (ptoks ts).
Proof.
  intros H. unfold paren, ptoks. change (TkP PLP :: ts ++ [TkP PRP]) with ([TkP PLP] ++ ts ++ [TkP PRP]). apply F_app; [reflexivity|]. now apply F_glue.
Qed.

(** the rest of a conjunction or disjunction of parenthesised expressions *)
Fixpoint chain (o : punct) (tss : list (list token)) (z : list token) : list token :=
  match tss with [] => z | ts :: l => TkP o :: ptoks ts ++ chain o l z end.
Lemma chain_and G (Hg : lawful G) z : stops (GBin VAnd) z -> forall tss ts acc, Forall2 (fun s t => derive GExpr s t []) tss ts ->
  exists t, derive (GLoop VAnd acc) (chain PAnd tss z) t z /\ forall v, means G v t = lg_and G (means G v acc) (all_of G (map (means G v) ts)).
Proof.
  intros Hz tss ts acc H. revert acc. induction H as [|s t tss ts H _ IH]; intros acc; cbn [chain].
  - exists acc. split; [now apply d_stop|]. intros v. symmetry. apply (lw_and_true G Hg).
  - destruct (IH (TrAnd acc t)) as (u & Hu & Ht). exists u. split; [|intros v; rewrite Ht; cbn; now rewrite (lw_and G Hg)].
    apply (d_op VAnd acc (TkP PAnd) TrAnd _ t (chain PAnd tss z)); [reflexivity| |exact Hu]. unfold ptoks. cbn [app]. rewrite <- app_assoc. cbn [app].
    apply (d_paren_up VRel); [exact H|]. destruct tss; [|reflexivity]. cbn. now apply (stops_below VAnd).
Qed.
Lemma join_chain op o : frag (tx " " ++ op ++ tx " ") [TkP o] -> forall ps tss p ts, tokens p ts -> Forall2 tokens ps tss ->
  frag (join (tx " " ++ op ++ tx " ") (map paren (p :: ps))) (ptoks ts ++ chain o tss []).
Proof.
  intros Ho ps tss p ts Hp H. revert p ts Hp. induction H as [|q tq ps tss Hq H IH]; intros p ts Hp.
  - cbn [map join chain]. rewrite app_nil_r. now apply paren_tokens.
  - cbn [chain]. change (join (tx " " ++ op ++ tx " ") (map paren (p :: q :: ps))) with (paren p ++ (tx " " ++ op ++ tx " ") ++ join (tx " " ++ op ++ tx " ") (map paren (q :: ps))).
    apply F_app; [now apply paren_tokens|]. change (TkP o :: ptoks tq ++ chain o tss []) with ([TkP o] ++ ptoks tq ++ chain o tss []). apply F_app; [exact Ho|now apply IH].
Qed.

Lemma joined G (Hg : lawful G) ps ts : Forall2 wf ps ts -> exists t, wf (join_predicates ps (tx "&&")) t /\ forall v, means G v t = all_of G (map (means G v) ts).
Proof.
  intros H. destruct H as [|p t ps ts Hp H].
  - exists (TrId (tx "true")). split; [exact true_wf|easy].
  - destruct H as [|q t2 ps ts Hq H]; [exists t; split; [exact Hp|intros v; cbn; now rewrite (lw_and_true G Hg)]|].
    assert (Ha : Forall2 wf (q :: ps) (t2 :: ts)) by (constructor; assumption). clear Hq H.
    destruct (wf_tokens p t Hp) as (tp & Htp & Hdp).
    assert (Hx : exists tss, Forall2 tokens (q :: ps) tss /\ Forall2 (fun s t => derive GExpr s t []) tss (t2 :: ts)).
    { clear - Ha. induction Ha as [|p t l l' Hp _ (tss & I1 & I2)]; [exists []; split; constructor|]. destruct (wf_tokens p t Hp) as (tp & H1 & H2). exists (tp :: tss). split; constructor; assumption. }
    destruct Hx as (tss & H1 & H2). destruct (chain_and G Hg [] Logic.I tss (t2 :: ts) t H2) as (u & Hu & Htr).
    exists u. split; [|intros v; now rewrite Htr].
    apply (tokens_wf _ (ptoks tp ++ chain PAnd tss [])).
    + apply frag_tokens. now apply (join_chain (tx "&&") PAnd eq_refl).
    + apply d_expr; [|exact Logic.I]. apply (d_below VOr _ u []); [|now apply d_stop]. apply (d_below VAnd _ t (chain PAnd tss [])); [|exact Hu].
      unfold ptoks. cbn [app]. rewrite <- app_assoc. cbn [app]. apply (d_paren_up VRel); [exact Hdp|]. now destruct tss.
Qed.

(** ** Disjunctions of expressions without parentheses *)
Lemma or_more z : stops (GBin VAnd) z -> forall n a ts t, parse n (GLoop VOr a) ts = Some (t, []) -> forall u r, derive (GLoop VOr t) z u r -> derive (GLoop VOr a) (ts ++ z) u r.
Proof.
  intros Hz. induction n as [|n IH]; intros a ts t H u r Hu; [discriminate|]. cbn [parse] in H. destruct ts as [|x ts]; [injection H as <-; exact Hu|].
  destruct (binop VOr x) as [f|] eqn:Hx; [|discriminate]. destruct (parse n (below VOr) ts) as [[b r1]|] eqn:E; [|discriminate].
  cbn [app]. apply (d_op VOr a x f _ b (r1 ++ z)); [exact Hx| |now apply (IH _ _ t)]. apply derive_ext; [now exists n|]. intros _. exact Hz.
Qed.
Lemma or_left G (Hg : lawful G) : forall n a ts t r, parse n (GLoop VOr a) ts = Some (t, r) -> forall acc a', (forall v, means G v a' = lg_or G (means G v acc) (means G v a)) ->
  exists t', derive (GLoop VOr a') ts t' r /\ forall v, means G v t' = lg_or G (means G v acc) (means G v t).
Proof.
  induction n as [|n IH]; intros a ts t r H acc a' Ha; [discriminate|]. cbn [parse] in H. destruct ts as [|x ts].
  - injection H as <- <-. exists a'. split; [now exists 1|exact Ha].
  - destruct (binop VOr x) as [f|] eqn:Hx.
    + destruct (parse n (below VOr) ts) as [[b r1]|] eqn:E; [|discriminate]. assert (f = TrOr) as -> by (destruct x as [| | | |[]]; cbn in Hx; congruence).
      destruct (IH _ _ _ _ H acc (TrOr a' b)) as (t' & H1 & H2); [intros v; cbn; rewrite Ha; symmetry; apply (lw_or G Hg)|].
      exists t'. split; [|exact H2]. apply (d_op VOr a' x TrOr _ b r1); [exact Hx|now exists n|exact H1].
    + injection H as <- <-. exists a'. split; [exists 1; cbn [parse]; now rewrite Hx|exact Ha].
Qed.
Lemma bin_inv k ts t r : derive (GBin k) ts t r -> exists a r1 n, derive (below k) ts a r1 /\ parse n (GLoop k a) r1 = Some (t, r).
Proof. intros [[|n] H]; [discriminate|]. cbn [parse] in H. destruct (parse n (below k) ts) as [[a r1]|] eqn:E; [|discriminate]. exists a, r1, n. split; [now exists n|exact H]. Qed.
Fixpoint ors (tss : list (list token)) : list token := match tss with [] => [] | ts :: l => TkP POr :: ts ++ ors l end.
Lemma ors_stop tss : stops (GBin VAnd) (ors tss).
Proof. now destruct tss. Qed.
Lemma or_chain G (Hg : lawful G) tss ts : Forall2 (fun s t => derive (GBin VOr) s t []) tss ts -> forall acc,
  exists t, derive (GLoop VOr acc) (ors tss) t [] /\ forall v, means G v t = lg_or G (means G v acc) (any_of G (map (means G v) ts)).
Proof.
  induction 1 as [|s t tss ts H _ IH]; intros acc; cbn [ors].
  - exists acc. split; [now apply d_stop|]. intros v. symmetry. apply (lw_or_false G Hg).
  - destruct (bin_inv _ _ _ _ H) as (a & r1 & n & H1 & H2).
    destruct (or_left G Hg n a r1 t [] H2 acc (TrOr acc a)) as (t' & H3 & H4); [easy|]. destruct (IH t') as (u & Hu & Hm).
    exists u. split.
    + apply (d_op VOr acc (TkP POr) TrOr _ a (r1 ++ ors tss)); [reflexivity| |].
      * apply derive_ext; [exact H1|]. intros _. apply ors_stop.
      * destruct H3 as [m H3]. apply (or_more _ (ors_stop tss) m _ _ t'); assumption.
    + intros v. rewrite Hm, H4. cbn. symmetry. apply (lw_or G Hg).
Qed.
Lemma or_all G (Hg : lawful G) s0 t0 tss ts : derive (GBin VOr) s0 t0 [] -> Forall2 (fun s t => derive (GBin VOr) s t []) tss ts ->
  exists t, derive (GBin VOr) (s0 ++ ors tss) t [] /\ forall v, means G v t = lg_or G (means G v t0) (any_of G (map (means G v) ts)).
Proof.
  intros H0 H. destruct (bin_inv _ _ _ _ H0) as (a & r1 & n & H1 & H2). destruct (or_chain G Hg tss ts H t0) as (u & Hu & Hm). exists u. split; [|exact Hm].
  apply (d_below VOr _ a (r1 ++ ors tss)); [apply derive_ext; [exact H1|intros _; apply ors_stop]|]. now apply (or_more _ (ors_stop tss) n _ _ t0).
Qed.
Lemma join_ors ps tss p ts : tokens p ts -> Forall2 tokens ps tss -> tokens (join (tx " || ") (p :: ps)) (ts ++ ors tss).
Proof.
  intros Hp H. revert p ts Hp. induction H as [|q tq ps tss Hq H IH]; intros p ts Hp.
  - cbn [join ors]. now rewrite app_nil_r.
  - cbn [ors]. change (join (tx " || ") (p :: q :: ps)) with (p ++ tx " || " ++ join (tx " || ") (q :: ps)). apply T_glue; [exact Hp|reflexivity|].
    change (TkP POr :: tq ++ ors tss) with ([TkP POr] ++ tq ++ ors tss). apply T_frag; [reflexivity|now apply IH].
Qed.

(** the documented meaning of the data blocks, given the meaning of each block's predicates *)
Definition blocks_mean (G : logic) (blocks : list (list (lg_t G))) : lg_t G :=
  if match blocks with [] => true | _ => existsb (fun b => match b with [] => true | _ => false end) blocks end then lg_true G
  else any_of G (map (all_of G) blocks).
(** with several blocks, a block's only predicate is not a conditional expression *)
Definition safe_blocks (cds : list cond_data) : Prop :=
  1 < List.length cds -> forall cd p, In cd cds -> cd_preds cd = [p] -> no_conditional p.

Lemma wf_true t : wf (tx "true") t -> t = TrId (tx "true").
Proof.
  intros [Hp _]. destruct true_wf as [Hq _]. apply parses_spec in Hp as (ts & H1 & H2), Hq as (ts' & H3 & H4). rewrite H1 in H3. injection H3 as <-. now destruct (derive_det _ _ _ _ _ _ H2 H4).
Qed.
Lemma paren_expr s t : wf s t -> exists ts, tokens (paren s) ts /\ derive (GBin VOr) ts t [] /\ wf (paren s) t.
Proof.
  intros H. destruct (wf_tokens _ _ H) as (ts & H1 & H2). exists (ptoks ts). assert (Hd : derive (GBin VOr) (ptoks ts) t []) by (now apply (d_paren_up VOr)).
  pose proof (frag_tokens _ _ (paren_tokens _ _ H1)) as Ht. split; [exact Ht|]. split; [exact Hd|]. apply (tokens_wf _ (ptoks ts)); [exact Ht|]. now apply d_expr.
Qed.
Lemma block_wf G (Hg : lawful G) cd ts : Forall2 wf (cd_preds cd) ts -> exists t, wf (block_predicate cd) t /\ (forall v, means G v t = all_of G (map (means G v) ts)) /\
  ((forall p, cd_preds cd = [p] -> no_conditional p) -> exists tk, tokens (block_predicate cd) tk /\ derive (GBin VOr) tk t []).
Proof.
  intros H. destruct (joined G Hg _ _ H) as (t & Hw & Hm). unfold block_predicate. destruct (cd_preds cd) as [|p [|q ps]].
  - destruct (paren_expr _ _ Hw) as (tk & H1 & H2 & H3). exists t. split; [exact H3|]. split; [exact Hm|]. eauto.
  - exists t. split; [exact Hw|]. split; [exact Hm|]. intros Hn. destruct (wf_tokens _ _ Hw) as (tk & H1 & H2). cbn in H1. exists tk. split; [exact H1|].
    destruct (Hn p eq_refl tk (tokens_lex _ _ H1)) as [t' Ht']. assert (He : derive GExpr tk t' []) by now apply d_expr. now destruct (derive_det _ _ _ _ _ _ H2 He) as [-> _].
  - destruct (paren_expr _ _ Hw) as (tk & H1 & H2 & H3). exists t. split; [exact H3|]. split; [exact Hm|]. eauto.
Qed.
Lemma blocks_wf G (Hg : lawful G) cds tss : Forall2 (fun cd ts => Forall2 wf (cd_preds cd) ts) cds tss -> safe_blocks cds ->
  exists t, wf (build_descriptor_predicate cds) t /\ forall v, means G v t = blocks_mean G (map (map (means G v)) tss).
Proof.
  intros H Hs. unfold build_descriptor_predicate, blocks_mean.
  assert (Hex : forall v : tree -> lg_t G, existsb (fun b : list (lg_t G) => match b with [] => true | _ => false end) (map (map (means G v)) tss) = existsb no_preds cds).
  { intros v. clear Hs. induction H as [|cd ts cds tss H _ IH]; [reflexivity|]. cbn [map existsb]. rewrite IH. f_equal. unfold no_preds. now destruct H. }
  destruct H as [|cd ts cds tss Hc H]; [exists (TrId (tx "true")); split; [exact true_wf|easy]|].
  destruct (existsb no_preds (cd :: cds)) eqn:E.
  { exists (TrId (tx "true")). split; [exact true_wf|]. intros v. specialize (Hex v). cbn [map] in *. now rewrite Hex. }
  assert (Hv : forall v, (if match map (map (means G v)) (ts :: tss) with [] => true | _ => existsb (fun b : list (lg_t G) => match b with [] => true | _ => false end) (map (map (means G v)) (ts :: tss)) end then lg_true G
                          else any_of G (map (all_of G) (map (map (means G v)) (ts :: tss)))) = lg_or G (all_of G (map (means G v) ts)) (any_of G (map (fun ts => all_of G (map (means G v) ts)) tss))).
  { intros v. specialize (Hex v). cbn [map] in *. rewrite Hex. cbn. now rewrite map_map. }
  destruct H as [|cd2 ts2 cds tss Hc2 H].
  - destruct (block_wf G Hg cd ts Hc) as (t & H1 & H2 & _). exists t. split; [exact H1|]. intros v. rewrite Hv. cbn. now rewrite (lw_or_false G Hg).
  - assert (Hall : Forall2 (fun cd ts => Forall2 wf (cd_preds cd) ts) (cd2 :: cds) (ts2 :: tss)) by (constructor; assumption). clear Hc2 H.
    assert (Hn : forall c, In c (cd :: cd2 :: cds) -> forall p, cd_preds c = [p] -> no_conditional p) by (intros c Hi p Hp; apply (Hs ltac:(cbn; lia) c p Hi Hp)). clear Hs E Hex.
    destruct (block_wf G Hg cd ts Hc) as (t & _ & H2 & H3). destruct (H3 (Hn cd (or_introl eq_refl))) as (tk & Ht & Hd).
    assert (Hr : exists tks us, Forall2 tokens (map block_predicate (cd2 :: cds)) tks /\ Forall2 (fun s t => derive (GBin VOr) s t []) tks us /\
      forall v, map (means G v) us = map (fun ts => all_of G (map (means G v) ts)) (ts2 :: tss)).
    { assert (Hn' : forall c, In c (cd2 :: cds) -> forall p, cd_preds c = [p] -> no_conditional p) by (intros c Hi; apply Hn; now right). clear - Hall Hn' Hg.
      induction Hall as [|c l cs ls Hc _ IH]; [exists [], []; repeat split; constructor|]. destruct IH as (tks & us & I1 & I2 & I3); [intros x Hx; apply Hn'; now right|].
      destruct (block_wf G Hg c l Hc) as (u & _ & H2 & H3). destruct (H3 (Hn' c (or_introl eq_refl))) as (tk & Ht & Hd). exists (tk :: tks), (u :: us).
      split; [constructor; assumption|]. split; [constructor; assumption|]. intros v. cbn [map]. now rewrite H2, I3. }
    destruct Hr as (tks & us & R1 & R2 & R3). destruct (or_all G Hg tk t tks us Hd R2) as (u & Hu & Hm). exists u. split.
    + apply (tokens_wf _ (tk ++ ors tks)); [|now apply d_expr]. cbn [map]. change (block_predicate cd2 :: map block_predicate cds) with (map block_predicate (cd2 :: cds)). now apply join_ors.
    + intros v. rewrite Hv, Hm, H2, R3. reflexivity.
Qed.

(** C55 for the action's own predicates: the predicate is an expression and means their conjunction *)
Theorem C55_action_predicates_are_joined_partial G ps ts : lawful G -> Forall2 wf ps ts ->
  exists t, parses (build_action_predicate ps) t /\ forall v, means G v t = all_of G (map (means G v) ts).
Proof. intros Hg H. destruct (joined G Hg ps ts H) as (t & Hw & Ht). exists t. split; [now apply wf_parses|exact Ht]. Qed.
(** C55 for rate limiting *)
Theorem C55_ratelimit_predicates_are_combined_partial G ps ts cds tss : lawful G -> Forall2 wf ps ts -> Forall2 (fun cd ts => Forall2 wf (cd_preds cd) ts) cds tss -> safe_blocks cds ->
  exists t, parses (build_ratelimit_predicate ps cds) t /\ forall v, means G v t = lg_and G (all_of G (map (means G v) ts)) (blocks_mean G (map (map (means G v)) tss)).
Proof.
  intros Hg Hp Hc Hs. destruct (joined G Hg ps ts Hp) as (a & Ha & Hma). fold (build_action_predicate ps) in Ha. destruct (blocks_wf G Hg cds tss Hc Hs) as (d & Hd & Hmd). unfold build_ratelimit_predicate.
  destruct (text_eqb (tx "true") (build_action_predicate ps)) eqn:Ea; destruct (text_eqb (tx "true") (build_descriptor_predicate cds)) eqn:Ed; cbn [andb].
  - apply text_eqb_eq in Ea, Ed. rewrite <- Ea in Ha. rewrite <- Ed in Hd. apply wf_true in Ha, Hd. subst a d. exists (TrId (tx "true")). split; [exact (wf_parses _ _ true_wf)|].
    intros v. rewrite <- Hma, <- Hmd. symmetry. apply (lw_true_and G Hg).
  - apply text_eqb_eq in Ea. rewrite <- Ea in Ha. apply wf_true in Ha. subst a. exists d. split; [now apply wf_parses|]. intros v. rewrite <- Hma, Hmd. symmetry. apply (lw_true_and G Hg).
  - apply text_eqb_eq in Ed. rewrite <- Ed in Hd. apply wf_true in Hd. subst d. exists a. split; [now apply wf_parses|]. intros v. rewrite <- Hmd, Hma. symmetry. apply (lw_and_true G Hg).
  - destruct (joined G Hg [build_action_predicate ps; build_descriptor_predicate cds] [a; d]) as (u & Hu & Hm); [constructor; [exact Ha|constructor; [exact Hd|constructor]]|].
    exists u. split; [|intros v; rewrite Hm; cbn; now rewrite Hma, Hmd, (lw_and_true G Hg)]. apply wf_parses. cbn in Hu. unfold paren in Hu.
    replace (tx "(" ++ build_action_predicate ps ++ tx ") && (" ++ build_descriptor_predicate cds ++ tx ")") with (("("%char :: build_action_predicate ps ++ [")"%char]) ++ " "%char :: "&"%char :: "&"%char :: " "%char :: "("%char :: build_descriptor_predicate cds ++ [")"%char]); [exact Hu|].
    cbn. rewrite <- !app_assoc. reflexivity.
Qed.

Definition var (s : string) : tree := TrId (tx s).
Ltac parsed := eexists; exists 40; split; [reflexivity|reflexivity].
Ltac clean := split; [parsed|intros ts H; vm_compute in H; discriminate H].
Definition ex_preds : list text := [tx "a || b"; tx "c ? d : e // why
"].
Definition ex_blocks : list cond_data := [mkCd [tx "p || q"] []; mkCd [tx "r"; tx "s ? x : y"] []; mkCd [tx "z"] []].
Example C55_ex : exists ts tss, Forall2 wf ex_preds ts /\ Forall2 (fun cd ts => Forall2 wf (cd_preds cd) ts) ex_blocks tss /\ safe_blocks ex_blocks /\
  lawful two /\ lawful three /\ lawful left_to_right /\
  build_ratelimit_predicate ex_preds ex_blocks = tx "((a || b) && (c ? d : e // why
)) && (p || q || ((r) && (s ? x : y)) || z)".
Proof.
  exists [TrOr (var "a") (var "b"); TrCond (var "c") (var "d") (var "e")], [[TrOr (var "p") (var "q")]; [var "r"; TrCond (var "s") (var "x") (var "y")]; [var "z"]].
  split; [repeat (constructor; [clean|]); constructor|]. split; [repeat (constructor; [repeat (constructor; [clean|]); constructor|]); constructor|].
  split; [|split; [exact two_lawful|split; [exact three_lawful|split; [exact left_to_right_lawful|reflexivity]]]].
  intros _ cd p Hi Hp ts Hl. destruct Hi as [<-|[<-|[<-|[]]]]; cbn in Hp; try discriminate Hp; injection Hp as <-; vm_compute in Hl; injection Hl as <-; eexists; exists 30; reflexivity.
Qed.

(** C55 fails for conditional expressions in one of several blocks: it takes the other blocks
    into its last branch.  Here the second block holds, yet the action is skipped. *)
Theorem C55_conditional_swallows_blocks_refuted : exists cds tss t v, Forall2 (fun cd ts => Forall2 wf (cd_preds cd) ts) cds tss /\
  parses (build_ratelimit_predicate [] cds) t /\ means two v t = false /\ blocks_mean two (map (map (means two v)) tss) = true.
Proof.
  exists [mkCd [tx "c ? x : y"] []; mkCd [tx "q"] []], [[TrCond (var "c") (var "x") (var "y")]; [var "q"]], (TrCond (var "c") (var "x") (TrOr (var "y") (var "q"))),
    (fun t => match t with TrId s => mem_text s [tx "c"; tx "q"] | _ => false end).
  split; [repeat (constructor; [repeat (constructor; [clean|]); constructor|]); constructor|]. split; [parsed|]. split; reflexivity.
Qed.
(** C55 fails for predicates that end in a comment: it hides the closing parenthesis, and what
    is generated is no expression *)
Theorem C55_comment_swallows_predicates_refuted : exists ps ts, Forall2 parses ps ts /\ forall t, ~ parses (build_action_predicate ps) t.
Proof.
  exists [tx "a // why"; tx "b"], [var "a"; var "b"]. split; [repeat (constructor; [parsed|]); constructor|].
  intros t (ts & n & Hl & Hp). vm_compute in Hl. injection Hl as <-. do 24 (destruct n as [|n]; [discriminate Hp|]). vm_compute in Hp. discriminate Hp.
Qed.

Print Assumptions C54_escaped_text_is_one_literal.
Print Assumptions C54_literal_has_the_text_as_value.
Print Assumptions C55_action_predicates_are_joined_partial.
Print Assumptions C55_ratelimit_predicates_are_combined_partial.
Print Assumptions C55_conditional_swallows_blocks_refuted.
Print Assumptions C55_comment_swallows_predicates_refuted.
