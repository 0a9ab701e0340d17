(** C113: whose trace the calls of a request belong to. *)
From Coq Require Import String List NArith Bool Lia Arith Ascii.
From Verif Require Import Base Headers Tracing.
Import ListNotations.
Open Scope list_scope.

(** * Specifications *)
(** the levels of spans recorded and of messages logged, once configured *)
Definition levels1 (lv : option (nat * nat)) (o : top) : option (nat * nat) :=
  match o with
  | TConfig use level log => Some (export_level use level, log)
  | TLog log => match lv with Some (r, _) => Some (r, log) | None => None end
  | _ => lv
  end.
(** the requests whose span is entered and recorded, the latest first *)
Definition traced1 (lv : option (nat * nat)) (o : top) (acc : list N) : list N :=
  match o with
  | TBegin r _ true => match lv with Some (l, _) => if Nat.leb L_info l then r :: acc else acc | None => acc end
  | TEnd r _ | TDrop r => filter (fun x => negb (N.eqb r x)) acc
  | _ => acc
  end.
Definition history (h : list top) : option (nat * nat) * list N :=
  fold_left (fun st o => (levels1 (fst st) o, traced1 (fst st) o (snd st))) h (None, []).
Definition levels (h : list top) : option (nat * nat) := fst (history h).
Definition traced (h : list top) : list N := snd (history h).
(** the host never logs more than is recorded *)
Definition quiet (h : list top) : Prop := forall pre post r l, h = pre ++ post -> levels pre = Some (r, l) -> l <= r.
(** no spans of requests are made *)
Definition spans_off (lv : option (nat * nat)) : Prop := match lv with Some (r, l) => r < L_info /\ l < L_info | None => True end.
(** a context id is used for one request *)
Definition begins (h : list top) : list N := flat_map (fun o => match o with TBegin r _ _ => [r] | _ => [] end) h.
(** the trace the client put the request in *)
Definition client_trace (P : tparams) (h : list top) (r t : N) : Prop :=
  exists m on s, In (TBegin r (Some m) on) h /\ tp_parent P (h_to_map m) = Some (t, s).
(** the work of a request, and whose it is *)
Definition works (o : top) : option N := match o with TApply r _ _ | TCall r => Some r | _ => None end.
(** no request works while a request whose span was entered later is still on its way *)
Definition nested (h : list top) : Prop := forall pre o post r,
  h = pre ++ o :: post -> works o = Some r -> In r (traced pre) -> exists rest, traced pre = r :: rest.

(** * Lemmas *)
Lemma traced_snoc h o : traced (h ++ [o]) = traced1 (levels h) o (traced h).
Proof. unfold traced, levels, history. now rewrite fold_left_app. Qed.
Lemma levels_snoc h o : levels (h ++ [o]) = levels1 (levels h) o.
Proof. unfold levels, history. now rewrite fold_left_app. Qed.
Lemma begins_app a b : begins (a ++ b) = begins a ++ begins b.
Proof. unfold begins. now rewrite flat_map_app. Qed.

(** the context is in the trace, with the baggage *)
Definition in_trace (t : N * option text) (cx : ocx) : Prop := (exists s, oc_trace cx = Some (fst t, s)) /\ forall b, snd t = Some b -> oc_bag cx = b.
(** the trace and the baggage the client gave the request *)
Definition client_ctx (P : tparams) (h : list top) (r : N) (t : N * option text) : Prop :=
  exists m on s, In (TBegin r (Some m) on) h /\ tp_parent P (h_to_map m) = Some (fst t, s) /\ tp_baggage P (h_to_map m) = snd t.
Lemma child_in P n t cx : in_trace t cx -> in_trace t (child P n cx).
Proof. intros ((s & H) & Hb). unfold in_trace, child. cbn. rewrite H. eauto. Qed.

(** what holds of a request: its context, its span and the spans of its tasks are in its client's trace *)
Definition good_span (t : N * option text) (sp : list ocx) (s : nat) : Prop := s < length sp /\ in_trace t (nth s sp root_cx).
Record good (t : N * option text) (sp : list ocx) (q : treq) : Prop := {
  g_otel : in_trace t (tq_otel q);
  g_guard : forall s, tq_guard q = Some s -> good_span t sp s;
  g_tasks : tq_guard q <> None -> forall u s, In (u, Some s) (tq_spans q) -> good_span t sp s }.
Lemma good_span_app t sp x s : good_span t sp s -> good_span t (sp ++ x) s.
Proof. intros [H1 H2]. split; [rewrite app_length; lia|]. now rewrite app_nth1. Qed.
Lemma good_app t sp x q : good t sp q -> good t (sp ++ x) q.
Proof. intros [H1 H2 H3]. split; [exact H1|intros s Hs; apply good_span_app; auto|intros Hg u s Hs; apply good_span_app; eauto]. Qed.

Record winv (P : tparams) (h : list top) (w : tworld) : Prop := {
  wi_stack : exists gs, tw_stack w = map (fun s => (s, false)) gs /\ NoDup gs /\
               Forall2 (fun r s => exists q, nget_req r w = Some q /\ tq_guard q = Some s) (traced h) gs;
  wi_guards : forall r q s, nget_req r w = Some q -> tq_guard q = Some s -> In r (traced h) /\ s < length (tw_spans w);
  wi_traced : NoDup (traced h);
  wi_begun : forall r q, nget_req r w = Some q -> In r (begins h);
  wi_callers : forall r cx, In (r, cx) (tw_calls w) -> In r (begins h);
  wi_tasks : forall r q u s, nget_req r w = Some q -> In (u, Some s) (tq_spans q) -> s < length (tw_spans w);
  wi_apart : forall r q u s r' q', nget_req r w = Some q -> In (u, Some s) (tq_spans q) -> nget_req r' w = Some q' -> tq_guard q' = Some s -> False;
  wi_good : forall r q t, nget_req r w = Some q -> client_ctx P h r t -> good t (tw_spans w) q;
  wi_calls : forall r cx t, In (r, cx) (tw_calls w) -> client_ctx P h r t -> in_trace t cx }.

Lemma get_set r r' q w : nget_req r' (set_req r q w) = if N.eqb r' r then Some q else nget_req r' w.
Proof.
  unfold nget_req, set_req. cbn [tw_reqs]. destruct (N.eqb_spec r' r) as [->|Hn]; [apply aget_aset_same; apply N.eqb_eq|apply aget_aset_other; [apply N.eqb_eq|exact Hn]].
Qed.
Lemma get_del r r' w : nget_req r' (del_req r w) = if N.eqb r' r then None else nget_req r' w.
Proof.
  unfold nget_req, del_req. cbn [tw_reqs]. destruct (N.eqb_spec r' r) as [->|Hn]; [apply aget_adel_same; apply N.eqb_eq|apply aget_adel_other; [apply N.eqb_eq|exact Hn]].
Qed.
Lemma client_snoc P h o r t : client_ctx P (h ++ [o]) r t -> (forall m on, o <> TBegin r m on) -> client_ctx P h r t.
Proof.
  intros (m & on & s & Hi & Hp) Hn. apply in_app_or in Hi as [Hi|[Hi|[]]]; [now exists m, on, s|]. exfalso. now apply (Hn (Some m) on).
Qed.
Lemma client_begun P h r t : client_ctx P h r t -> In r (begins h).
Proof. intros (m & on & s & Hi & _). unfold begins. apply in_flat_map. exists (TBegin r (Some m) on). split; [exact Hi|now left]. Qed.
Lemma begin_in P m w t s : tp_parent P (h_to_map m) = Some (fst t, s) /\ tp_baggage P (h_to_map m) = snd t -> in_trace t (begin_otel P (Some m) w).
Proof. intros (H & Hb). unfold begin_otel, extract, in_trace. cbn. rewrite H, Hb. split; [eauto|]. intros b Hs. now rewrite Hs. Qed.
Lemma current_top w g gs : tw_stack w = map (fun s => (s, false)) (g :: gs) -> current_cx w = nth g (tw_spans w) root_cx.
Proof. intros H. unfold current_cx, current. now rewrite H. Qed.
Lemma not_marked s gs : ~ In s gs -> existsb (fun x => Nat.eqb s (fst x)) (map (fun s => (s, false)) gs) = false.
Proof.
  intros H. apply not_true_is_false. intros Hx. apply existsb_exists in Hx as ((a & b) & Hi & He). apply in_map_iff in Hi as (c & [= <- <-] & Hi).
  cbn in He. apply Nat.eqb_eq in He. now subst.
Qed.
Lemma pop_top s b l : pop s ((s, b) :: l) = l.
Proof. cbn. now rewrite Nat.eqb_refl. Qed.
Lemma filter_id r l : ~ In r l -> filter (fun x => negb (N.eqb r x)) l = l.
Proof. induction l as [|x l IH]; [reflexivity|]. intros H. cbn. destruct (N.eqb_spec r x) as [->|Hn]; [exfalso; apply H; now left|]. cbn. f_equal. apply IH. intros Hx. apply H. now right. Qed.
Lemma remove_pair (R : N -> nat -> Prop) tr gs r g : Forall2 R tr gs -> NoDup tr -> NoDup gs -> R r g -> (forall r' , R r' g -> r' = r) -> (forall g', R r g' -> g' = g) -> In r tr ->
  exists gs', pop g (map (fun s => (s, false)) gs) = map (fun s => (s, false)) gs' /\ NoDup gs' /\ incl gs' gs /\
    Forall2 R (filter (fun x => negb (N.eqb r x)) tr) gs'.
Proof.
  intros HF Ht Hg HR H1 H2. induction HF as [|x y tr gs Hxy HF IH]; [intros []|]. inversion_clear Ht as [|? ? Hx Ht']. inversion_clear Hg as [|? ? Hy Hg'].
  intros Hi. cbn [map pop fst filter]. destruct (Nat.eqb_spec g y) as [->|Hn].
  - assert (x = r) as -> by now apply H1. rewrite N.eqb_refl. cbn [negb]. exists gs. split; [reflexivity|]. split; [exact Hg'|]. split; [now apply incl_tl, incl_refl|]. rewrite filter_id; assumption.
  - destruct (N.eqb_spec r x) as [<-|Hnx]; [exfalso; apply Hn; symmetry; now apply H2|]. destruct Hi as [->|Hi]; [easy|].
    destruct (IH Ht' Hg' Hi) as (gs' & E1 & E2 & E3 & E4). exists (y :: gs'). cbn [map negb]. rewrite E1. split; [reflexivity|]. split.
    + constructor; [|exact E2]. intros Hin. apply Hy. now apply E3.
    + split; [intros z [<-|Hz]; [now left|right; now apply E3]|]. now constructor.
Qed.
Definition guards (w : tworld) (r : N) (s : nat) : Prop := exists q, nget_req r w = Some q /\ tq_guard q = Some s.
Lemma guard_in w tr gs : Forall2 (guards w) tr gs -> forall r s, In r tr -> guards w r s -> In s gs.
Proof.
  intros HF. induction HF as [|x y tr gs (z & Z1 & Z2) HF IH]; [easy|]. intros r s [->|Hi] Hg; [left|right; now apply (IH r)].
  destruct Hg as (q & Q1 & Q2). congruence.
Qed.
Lemma guard_unique w tr gs : Forall2 (guards w) tr gs -> NoDup gs -> forall r1 r2 s, In r1 tr -> guards w r1 s -> In r2 tr -> guards w r2 s -> r1 = r2.
Proof.
  intros HF. induction HF as [|x y tr gs (z & Z1 & Z2) HF IH]; [easy|]. intros Hn r1 r2 s H1 G1 H2 G2. inversion_clear Hn as [|? ? N1 N2].
  assert (K : forall r, In r tr -> guards w r s -> guards w x s -> False).
  { intros r Hr Gr (q & Q1 & Q2). apply N1. replace y with s by congruence. now apply (guard_in w tr gs HF r). }
  destruct H1 as [->|H1], H2 as [->|H2]; [reflexivity|exfalso; eauto|exfalso; eauto|]. now apply (IH N2 r1 r2 s).
Qed.

(** a request that no longer has a guard *)
Lemma winv_unguard P h w r q o (w' : tworld) (q' : option treq) : winv P h w -> nget_req r w = Some q ->
  (o = TDrop r \/ exists s, o = TEnd r s) ->
  tw_spans w' = tw_spans w -> tw_stack w' = tw_stack (drop_guard q w) -> tw_calls w' = tw_calls w ->
  (forall x, nget_req x w' = if N.eqb x r then q' else nget_req x w) ->
  (q' = None \/ q' = Some (mkTreq (tq_otel q) None (tq_spans q))) -> winv P (h ++ [o]) w'.
Proof.
  intros I Hq Ho Hsp Hst Hca Hget Hq'.
  assert (Htr : traced (h ++ [o]) = filter (fun x => negb (N.eqb r x)) (traced h)) by (rewrite traced_snoc; destruct Ho as [->|(s & ->)]; reflexivity).
  assert (Hbe : begins (h ++ [o]) = begins h) by (rewrite begins_app; destruct Ho as [->|(s & ->)]; cbn; apply app_nil_r).
  assert (Hcl : forall x t, client_ctx P (h ++ [o]) x t -> client_ctx P h x t)
    by (intros x t Hc; eapply client_snoc; [exact Hc|]; intros m on; destruct Ho as [->|(s & ->)]; discriminate).
  assert (Hold : forall x y, nget_req x w' = Some y -> exists z, nget_req x w = Some z /\ tq_otel y = tq_otel z /\ tq_spans y = tq_spans z /\
                   (x = r /\ tq_guard y = None \/ x <> r /\ y = z)).
  { intros x y Hx. rewrite Hget in Hx. destruct (N.eqb_spec x r) as [->|Hn].
    - destruct Hq' as [->| ->]; [discriminate|]. injection Hx as <-. exists q. repeat split; auto.
    - exists y. repeat split; auto. }
  constructor.
  - rewrite Htr, Hst. destruct (wi_stack _ _ _ I) as (gs & S1 & S2 & S4). unfold drop_guard.
    destruct (tq_guard q) as [g|] eqn:Hg.
    + destruct (wi_guards _ _ _ I r q g Hq Hg) as [Hin _].
      assert (Huniq : forall r1 r2 s, In r1 (traced h) -> (exists y, nget_req r1 w = Some y /\ tq_guard y = Some s) -> In r2 (traced h) ->
                       (exists y, nget_req r2 w = Some y /\ tq_guard y = Some s) -> r1 = r2).
      { intros r1 r2 s H1 G1 H2 G2. exact (guard_unique w _ _ S4 S2 r1 r2 s H1 G1 H2 G2). }
      destruct (remove_pair _ _ _ r g S4 (wi_traced _ _ _ I) S2) as (gs' & E1 & E2 & E3 & E4).
      * exists q. now split.
      * intros r' (y & Y1 & Y2). apply (Huniq r' r g); eauto. exact (proj1 (wi_guards _ _ _ I r' y g Y1 Y2)).
      * intros g' (y & Y1 & Y2). congruence.
      * exact Hin.
      * exists gs'. cbn [leave tw_stack]. rewrite S1. split; [exact E1|]. split; [exact E2|].
        clear - E4 Hget. assert (K : forall l gs, Forall2 (fun r s => exists q, nget_req r w = Some q /\ tq_guard q = Some s) l gs -> ~ In r l ->
                   Forall2 (fun r s => exists q, nget_req r w' = Some q /\ tq_guard q = Some s) l gs).
        { intros l gs HF. induction HF as [|a b l gs (z & Z1 & Z2) HF IH]; intros Hn; constructor.
          - exists z. rewrite Hget. destruct (N.eqb_spec a r) as [->|_]; [exfalso; apply Hn; now left|]. now split.
          - apply IH. intros Hx. apply Hn. now right. }
        apply K; [exact E4|]. intros Hx. apply filter_In in Hx as [_ Hx]. rewrite N.eqb_refl in Hx. discriminate.
    + assert (Hno : ~ In r (traced h)).
      { clear - S4 Hq Hg. induction S4 as [|a b tr gs (z & Z1 & Z2) HF IH]; [easy|]. intros [->|Hx]; [congruence|now apply IH]. }
      rewrite filter_id by exact Hno. exists gs. split; [exact S1|]. split; [exact S2|].
      clear - S4 Hget Hno. revert Hno. induction S4 as [|a b tr gs (z & Z1 & Z2) HF IH]; intros Hno; constructor.
      * exists z. rewrite Hget. destruct (N.eqb_spec a r) as [->|_]; [exfalso; apply Hno; now left|]. now split.
      * apply IH. intros Hx. apply Hno. now right.
  - intros x y s Hx Hs. destruct (Hold x y Hx) as (z & Z1 & Z2 & Z3 & [(-> & Z4)|(Hn & ->)]); [congruence|].
    rewrite Htr, Hsp. destruct (wi_guards _ _ _ I x z s Z1 Hs) as [G1 G2]. split; [|exact G2]. apply filter_In. split; [exact G1|].
    destruct (N.eqb_spec r x); [congruence|reflexivity].
  - rewrite Htr. apply NoDup_filter, (wi_traced _ _ _ I).
  - intros x y Hx. rewrite Hbe. destruct (Hold x y Hx) as (z & Z1 & _). exact (wi_begun _ _ _ I x z Z1).
  - intros x cx Hx. rewrite Hca in Hx. rewrite Hbe. exact (wi_callers _ _ _ I x cx Hx).
  - intros x y u s Hx Hs. destruct (Hold x y Hx) as (z & Z1 & Z2 & Z3 & _). rewrite Z3 in Hs. rewrite Hsp. exact (wi_tasks _ _ _ I x z u s Z1 Hs).
  - intros x y u s x' y' Hx Hs Hx' Hs'. destruct (Hold x y Hx) as (z & Z1 & Z2 & Z3 & _). rewrite Z3 in Hs.
    destruct (Hold x' y' Hx') as (z' & Z1' & Z2' & Z3' & [(-> & Z4')|(Hn & ->)]); [congruence|]. exact (wi_apart _ _ _ I x z u s x' z' Z1 Hs Z1' Hs').
  - intros x y t Hx Hc. destruct (Hold x y Hx) as (z & Z1 & Z2 & Z3 & [(-> & Z4)|(Hn & ->)]); rewrite Hsp.
    + destruct (wi_good _ _ _ I r z t Z1 (Hcl _ _ Hc)) as [G1 G2 G3]. split; [now rewrite Z2|congruence|congruence].
    + exact (wi_good _ _ _ I x z t Z1 (Hcl _ _ Hc)).
  - intros x cx t Hx Hc. rewrite Hca in Hx. exact (wi_calls _ _ _ I x cx t Hx (Hcl _ _ Hc)).
Qed.
Lemma winv_call P h w r cx : winv P h w -> In r (begins h) -> (forall t, client_ctx P h r t -> in_trace t cx) -> winv P h (add_call r cx w).
Proof.
  intros [W1 W2 W3 W4 W5 W6 W7 W8 W9] Hr Hc. constructor; auto.
  - intros x y [[= <- <-]|Hi]; [exact Hr|now apply (W5 x y)].
  - intros x y t [[= <- <-]|Hi] Ht; [now apply Hc|now apply (W9 x y)].
Qed.
Lemma winv_tasks P h w r q o w' xs sp' : winv P h w -> nget_req r w = Some q ->
  (forall lv acc, traced1 lv o acc = acc) -> (forall x m on, o <> TBegin x m on) ->
  tw_spans w' = tw_spans w ++ xs -> tw_stack w' = tw_stack w -> tw_calls w' = tw_calls w ->
  (forall x, nget_req x w' = if N.eqb x r then Some (mkTreq (tq_otel q) (tq_guard q) sp') else nget_req x w) ->
  (forall u s, In (u, Some s) sp' -> s < length (tw_spans w') /\ ((exists u', In (u', Some s) (tq_spans q)) \/ length (tw_spans w) <= s) /\
     (tq_guard q <> None -> forall t, client_ctx P h r t -> good_span t (tw_spans w') s)) -> winv P (h ++ [o]) w'.
Proof.
  intros I Hq Ho Ho2 Hsp Hst Hca Hget Hnew.
  assert (Htr : traced (h ++ [o]) = traced h) by (rewrite traced_snoc; apply Ho).
  assert (Hbe : begins (h ++ [o]) = begins h).
  { rewrite begins_app. destruct o; cbn; try apply app_nil_r. exfalso. now eapply Ho2. }
  assert (Hcl : forall x t, client_ctx P (h ++ [o]) x t -> client_ctx P h x t) by (intros x t Hc; eapply client_snoc; [exact Hc|apply Ho2]).
  assert (Hold : forall x y, nget_req x w' = Some y -> exists z, nget_req x w = Some z /\ tq_otel y = tq_otel z /\ tq_guard y = tq_guard z /\
                   (x = r /\ z = q /\ tq_spans y = sp' \/ x <> r /\ y = z)).
  { intros x y Hx. rewrite Hget in Hx. destruct (N.eqb_spec x r) as [->|Hn].
    - injection Hx as <-. exists q. repeat split; auto.
    - exists y. repeat split; auto. }
  assert (Hlen : length (tw_spans w) <= length (tw_spans w')) by (rewrite Hsp, app_length; lia).
  constructor.
  - rewrite Htr, Hst. destruct (wi_stack _ _ _ I) as (gs & S1 & S2 & S4). exists gs. split; [exact S1|]. split; [exact S2|].
    clear - S4 Hget Hq. induction S4 as [|a b tr gs (z & Z1 & Z2) HF IH]; constructor; [|exact IH]. rewrite Hget.
    destruct (N.eqb_spec a r) as [->|_]; [|now exists z]. eexists. split; [reflexivity|]. cbn. congruence.
  - intros x y s Hx Hs. rewrite Htr. destruct (Hold x y Hx) as (z & Z1 & Z2 & Z3 & _). rewrite Z3 in Hs.
    destruct (wi_guards _ _ _ I x z s Z1 Hs) as [G1 G2]. split; [exact G1|lia].
  - rewrite Htr. apply (wi_traced _ _ _ I).
  - intros x y Hx. rewrite Hbe. destruct (Hold x y Hx) as (z & Z1 & _). exact (wi_begun _ _ _ I x z Z1).
  - intros x cx Hx. rewrite Hca in Hx. rewrite Hbe. exact (wi_callers _ _ _ I x cx Hx).
  - intros x y u s Hx Hs. destruct (Hold x y Hx) as (z & Z1 & Z2 & Z3 & [(-> & -> & Z4)|(Hn & ->)]).
    + rewrite Z4 in Hs. exact (proj1 (Hnew u s Hs)).
    + pose proof (wi_tasks _ _ _ I x z u s Z1 Hs). lia.
  - intros x y u s x' y' Hx Hs Hx' Hs'. destruct (Hold x' y' Hx') as (z' & Z1' & Z2' & Z3' & _). rewrite Z3' in Hs'.
    destruct (Hold x y Hx) as (z & Z1 & Z2 & Z3 & [(-> & -> & Z4)|(Hn & ->)]).
    + rewrite Z4 in Hs. destruct (Hnew u s Hs) as (_ & [(u' & Hu)|Hl] & _); [exact (wi_apart _ _ _ I r q u' s x' z' Z1 Hu Z1' Hs')|].
      pose proof (proj2 (wi_guards _ _ _ I x' z' s Z1' Hs')). lia.
    + exact (wi_apart _ _ _ I x z u s x' z' Z1 Hs Z1' Hs').
  - intros x y t Hx Hc. apply Hcl in Hc. destruct (Hold x y Hx) as (z & Z1 & Z2 & Z3 & Hz).
    pose proof (wi_good _ _ _ I x z t Z1 Hc) as HG. destruct Hz as [(-> & -> & Z4)|(Hn & ->)].
    + destruct HG as [G1 G2 G3]. split; [now rewrite Z2|intros s Hs; rewrite Hsp; apply good_span_app, G2; congruence|].
      intros Hg u s Hs. rewrite Z4 in Hs. apply (Hnew u s Hs); [congruence|exact Hc].
    + rewrite Hsp. now apply good_app.
  - intros x cx t Hx Hc. rewrite Hca in Hx. exact (wi_calls _ _ _ I x cx t Hx (Hcl _ _ Hc)).
Qed.
Lemma winv_same P h w o : winv P h w -> traced (h ++ [o]) = traced h -> (forall x m on, o <> TBegin x m on) -> winv P (h ++ [o]) w.
Proof.
  intros [W1 W2 W3 W4 W5 W6 W7 W8 W9] Ht Ho.
  assert (Hbe : begins (h ++ [o]) = begins h) by (rewrite begins_app; destruct o; cbn; try apply app_nil_r; exfalso; now eapply Ho).
  assert (Hcl : forall x t, client_ctx P (h ++ [o]) x t -> client_ctx P h x t) by (intros x t Hc; eapply client_snoc; [exact Hc|apply Ho]).
  constructor; rewrite ?Ht, ?Hbe; eauto.
Qed.
Lemma untraced P h w r : winv P h w -> nget_req r w = None -> ~ In r (traced h).
Proof.
  intros I Hr Hi. destruct (wi_stack _ _ _ I) as (gs & _ & _ & HF). clear - HF Hr Hi.
  induction HF as [|a b tr gs (z & Z1 & Z2) HF IH]; [easy|]. destruct Hi as [->|Hi]; [congruence|now apply IH].
Qed.

Lemma winv_begin P h w r m on : winv P h w -> tw_filters w = levels h -> (forall L, enabled L w = true -> records L w = true) -> ~ In r (begins h) -> winv P (h ++ [TBegin r m on]) (tstep P w (TBegin r m on)).
Proof.
  intros I Hlv Hqu Hr. assert (Hnone : nget_req r w = None) by (destruct (nget_req r w) as [q|] eqn:Hq; [exfalso; apply Hr; exact (wi_begun _ _ _ I r q Hq)|reflexivity]).
  assert (Hbe : begins (h ++ [TBegin r m on]) = begins h ++ [r]) by (rewrite begins_app; reflexivity).
  assert (Hcl : forall x t, x <> r -> client_ctx P (h ++ [TBegin r m on]) x t -> client_ctx P h x t)
    by (intros x t Hx Hc; eapply client_snoc; [exact Hc|]; intros m' on'; congruence).
  assert (Hown : forall t, client_ctx P (h ++ [TBegin r m on]) r t -> in_trace t (begin_otel P m w)).
  { intros t (m' & on' & s & Hi & Hp). apply in_app_or in Hi as [Hi|[[= -> _]|[]]].
    - exfalso. apply Hr. apply (client_begun P h r t). now exists m', on', s.
    - now apply (begin_in P m' w t s). }
  pose proof (untraced _ _ _ _ I Hnone) as Hut. cbn [tstep]. set (cx := begin_otel P m w) in *. clearbody cx.
  destruct (on && enabled L_info w) eqn:Hon.
  - apply andb_true_iff in Hon as [-> Hen]. pose proof (Hqu _ Hen) as Hrec. cbn [new_span]. set (n := length (tw_spans w)). set (w1 := enter n _).
    assert (Hsp : tw_spans w1 = tw_spans w ++ [child P n cx]) by (unfold w1; cbn [enter set_req tw_spans]; now rewrite Hrec).
    assert (Hlen : length (tw_spans w1) = S n) by (rewrite Hsp, app_length; cbn; unfold n; lia).
    assert (Htr : traced (h ++ [TBegin r m true]) = r :: traced h).
    { rewrite traced_snoc. cbn [traced1]. rewrite <- Hlv. unfold records in Hrec. destruct (tw_filters w) as [[a b]|]; [|discriminate]. now rewrite Hrec. }
    assert (Hget : forall x, nget_req x w1 = if N.eqb x r then Some (mkTreq cx (Some n) []) else nget_req x w).
    { intros x. unfold w1, enter. change (nget_req x (mkTw ?f ?a ?b (tw_reqs ?c) ?d)) with (nget_req x c). rewrite get_set. reflexivity. }
    destruct (wi_stack _ _ _ I) as (gs & S1 & S2 & S4).
    assert (Hgs : ~ In n gs).
    { intros Hi. clear - I S4 Hi. assert (exists r q, nget_req r w = Some q /\ tq_guard q = Some n) as (r & q & Q1 & Q2).
      { clear I. induction S4 as [|a b tr gs (z & Z1 & Z2) HF IH]; [destruct Hi|]. destruct Hi as [->|Hi]; [now exists a, z|now apply IH]. }
      pose proof (proj2 (wi_guards _ _ _ I r q n Q1 Q2)). unfold n in *. lia. }
    assert (Hst : tw_stack w1 = map (fun s => (s, false)) (n :: gs)).
    { unfold w1. cbn [enter set_req tw_stack map]. rewrite S1, not_marked by exact Hgs. reflexivity. }
    assert (Hca : tw_calls w1 = tw_calls w) by reflexivity. clearbody w1. constructor.
    + exists (n :: gs). split; [exact Hst|]. split; [now constructor|]. rewrite Htr. constructor.
      * rewrite Hget, N.eqb_refl. eexists. split; reflexivity.
      * clear - S4 Hget Hut. revert Hut. induction S4 as [|a b tr gs (z & Z1 & Z2) HF IH]; intros Hut; constructor.
        -- rewrite Hget. destruct (N.eqb_spec a r) as [->|_]; [exfalso; apply Hut; now left|now exists z].
        -- apply IH. intros Hx. apply Hut. now right.
    + intros x y s Hx Hs. rewrite Hget in Hx. rewrite Htr. destruct (N.eqb_spec x r) as [->|Hn].
      * injection Hx as <-. cbn in Hs. injection Hs as Hs. subst s. split; [now left|lia].
      * destruct (wi_guards _ _ _ I x y s Hx Hs) as [G1 G2]. split; [now right|unfold n in *; lia].
    + rewrite Htr. constructor; [exact Hut|apply (wi_traced _ _ _ I)].
    + intros x y Hx. rewrite Hbe. rewrite Hget in Hx. apply in_or_app. destruct (N.eqb_spec x r) as [->|Hn]; [right; now left|left; exact (wi_begun _ _ _ I x y Hx)].
    + intros x y Hx. rewrite Hbe. apply in_or_app. left. rewrite Hca in Hx. exact (wi_callers _ _ _ I x y Hx).
    + intros x y u s Hx Hs. rewrite Hget in Hx. destruct (N.eqb_spec x r) as [->|Hn]; [injection Hx as <-; destruct Hs|].
      pose proof (wi_tasks _ _ _ I x y u s Hx Hs). unfold n in *. lia.
    + intros x y u s x' y' Hx Hs Hx' Hs'. rewrite Hget in Hx, Hx'. destruct (N.eqb_spec x r) as [->|Hn]; [injection Hx as <-; destruct Hs|].
      destruct (N.eqb_spec x' r) as [->|Hn'].
      * injection Hx' as <-. cbn in Hs'. injection Hs' as Hs'. subst s. pose proof (wi_tasks _ _ _ I x y u n Hx Hs). unfold n in *. lia.
      * exact (wi_apart _ _ _ I x y u s x' y' Hx Hs Hx' Hs').
    + intros x y t Hx Hc. rewrite Hget in Hx. destruct (N.eqb_spec x r) as [->|Hn].
      * injection Hx as <-. apply Hown in Hc. split; [exact Hc| |intros _ u s []]. cbn. intros s Hs. injection Hs as Hs. subst s. split; [lia|].
        rewrite Hsp. rewrite app_nth2 by (unfold n; lia). unfold n. rewrite Nat.sub_diag. cbn [nth]. now apply child_in.
      * rewrite Hsp. apply good_app. exact (wi_good _ _ _ I x y t Hx (Hcl x t Hn Hc)).
    + intros x y t Hx Hc. rewrite Hca in Hx. destruct (N.eq_dec x r) as [->|Hn]; [exfalso; apply Hr; exact (wi_callers _ _ _ I r y Hx)|].
      exact (wi_calls _ _ _ I x y t Hx (Hcl x t Hn Hc)).
  - assert (Htr : traced (h ++ [TBegin r m on]) = traced h).
    { rewrite traced_snoc. cbn [traced1]. destruct on; [|reflexivity]. cbn [andb] in Hon. unfold enabled in Hon. rewrite Hlv in Hon.
      destruct (levels h) as [[a b]|]; [|reflexivity]. apply orb_false_iff in Hon as [-> _]. reflexivity. }
    assert (Hget : forall x, nget_req x (set_req r (mkTreq cx None []) w) = if N.eqb x r then Some (mkTreq cx None []) else nget_req x w) by (intros x; apply get_set).
    destruct (wi_stack _ _ _ I) as (gs & S1 & S2 & S4). constructor.
    + exists gs. split; [exact S1|]. split; [exact S2|]. rewrite Htr. clear - S4 Hget Hut. revert Hut.
      induction S4 as [|a b tr gs (z & Z1 & Z2) HF IH]; intros Hut; constructor.
      * rewrite Hget. destruct (N.eqb_spec a r) as [->|_]; [exfalso; apply Hut; now left|now exists z].
      * apply IH. intros Hx. apply Hut. now right.
    + intros x y s Hx Hs. rewrite Hget in Hx. rewrite Htr. destruct (N.eqb_spec x r) as [->|Hn]; [now injection Hx as <-|exact (wi_guards _ _ _ I x y s Hx Hs)].
    + rewrite Htr. apply (wi_traced _ _ _ I).
    + intros x y Hx. rewrite Hbe. rewrite Hget in Hx. apply in_or_app. destruct (N.eqb_spec x r) as [->|Hn]; [right; now left|left; exact (wi_begun _ _ _ I x y Hx)].
    + intros x y Hx. rewrite Hbe. apply in_or_app. left. exact (wi_callers _ _ _ I x y Hx).
    + intros x y u s Hx Hs. rewrite Hget in Hx. destruct (N.eqb_spec x r) as [->|Hn]; [injection Hx as <-; destruct Hs|exact (wi_tasks _ _ _ I x y u s Hx Hs)].
    + intros x y u s x' y' Hx Hs Hx' Hs'. rewrite Hget in Hx, Hx'. destruct (N.eqb_spec x r) as [->|Hn]; [injection Hx as <-; destruct Hs|].
      destruct (N.eqb_spec x' r) as [->|Hn']; [now injection Hx' as <-|exact (wi_apart _ _ _ I x y u s x' y' Hx Hs Hx' Hs')].
    + intros x y t Hx Hc. rewrite Hget in Hx. destruct (N.eqb_spec x r) as [->|Hn].
      * injection Hx as <-. apply Hown in Hc. split; [exact Hc|discriminate|intros _ u s []].
      * exact (wi_good _ _ _ I x y t Hx (Hcl x t Hn Hc)).
    + intros x y t Hx Hc. destruct (N.eq_dec x r) as [->|Hn]; [exfalso; apply Hr; exact (wi_callers _ _ _ I r y Hx)|].
      exact (wi_calls _ _ _ I x y t Hx (Hcl x t Hn Hc)).
Qed.

Lemma top_guard w r q g gs : tw_stack w = map (fun s => (s, false)) gs -> (exists rest, Forall2 (guards w) (r :: rest) gs) ->
  nget_req r w = Some q -> tq_guard q = Some g -> current_cx w = nth g (tw_spans w) root_cx.
Proof.
  intros Hs (rest & HF) Hq Hg. inversion HF as [|a b c gs' (z & Z1 & Z2) HF']. subst. replace b with g in * by congruence. now apply (current_top w g gs').
Qed.
Lemma recorded_in t cx : in_trace t cx -> recorded cx = true.
Proof. intros ((s & H) & _). unfold recorded. now rewrite H. Qed.
Lemma parent_current w : recorded (current_cx w) = true -> parent_cx w = current_cx w.
Proof.
  unfold parent_cx, current_cx, current. induction (tw_stack w) as [|[n b] l IH]; [discriminate|]. cbn [find snd fst]. destruct b; cbn [negb andb option_map]; [exact IH|].
  cbn [fst]. now intros ->.
Qed.
Lemma winv_filters P h w f : winv P h w -> winv P h (mkTw f (tw_spans w) (tw_stack w) (tw_reqs w) (tw_calls w)).
Proof. intros [W1 W2 W3 W4 W5 W6 W7 W8 W9]. constructor; assumption. Qed.
Lemma winv_extend P h w xs : winv P h w -> winv P h (mkTw (tw_filters w) (tw_spans w ++ xs) (tw_stack w) (tw_reqs w) (tw_calls w)).
Proof.
  intros [W1 W2 W3 W4 W5 W6 W7 W8 W9]. constructor; try assumption.
  - intros r q s Hq Hs. destruct (W2 r q s Hq Hs) as [A B]. split; [exact A|]. cbn [tw_spans]. rewrite app_length. lia.
  - intros r q u s Hq Hs. pose proof (W6 r q u s Hq Hs). cbn [tw_spans]. rewrite app_length. lia.
  - intros r q t Hq Hc. cbn [tw_spans]. apply good_app. exact (W8 r q t Hq Hc).
Qed.
(** what making a call does *)
Lemma call_in_frame P r q v : tw_reqs (call_in P r q v) = tw_reqs v /\ exists cx, tw_calls (call_in P r q v) = (r, cx) :: tw_calls v /\ (tq_guard q = None -> cx = tq_otel q).
Proof.
  unfold call_in, make_span, new_span. destruct (enabled L_debug v); (split; [reflexivity|]); eexists; (split; [reflexivity|]); intros Hg; unfold call_cx; now rewrite Hg.
Qed.
Lemma call_in_spec P r q v : (forall x, In x (tw_stack v) -> fst x < length (tw_spans v)) -> (forall L, enabled L v = true -> records L v = true) ->
  exists xs cx, call_in P r q v = add_call r cx (mkTw (tw_filters v) (tw_spans v ++ xs) (tw_stack v) (tw_reqs v) (tw_calls v)) /\
    (tq_guard q = None -> cx = tq_otel q) /\ (tq_guard q <> None -> forall t, in_trace t (current_cx v) -> in_trace t cx).
Proof.
  intros Hst Hqu. unfold call_in, make_span, new_span. destruct (enabled L_debug v) eqn:He.
  - rewrite (Hqu _ He). set (n := length (tw_spans v)). set (x := child P n (parent_cx v)). cbn [enter_opt leave_opt].
    exists [x], (call_cx q (enter n (mkTw (tw_filters v) (tw_spans v ++ [x]) (tw_stack v) (tw_reqs v) (tw_calls v)))). split; [|split].
    + unfold leave, enter, add_call. cbn [tw_filters tw_spans tw_stack tw_reqs tw_calls]. now rewrite pop_top.
    + intros Hg. unfold call_cx. now rewrite Hg.
    + intros Hg t Ht. unfold call_cx. destruct (tq_guard q); [|easy]. unfold current_cx, current, enter. cbn [tw_stack tw_spans].
      assert (Hm : existsb (fun y => Nat.eqb n (fst y)) (tw_stack v) = false).
      { apply not_true_is_false. intros Hx. apply existsb_exists in Hx as (y & Hy & Hn). apply Nat.eqb_eq in Hn. pose proof (Hst y Hy). unfold n in Hn. lia. }
      rewrite Hm. cbn [find snd negb option_map fst]. rewrite app_nth2 by (unfold n; lia). unfold n at 1. rewrite Nat.sub_diag. cbn [nth]. unfold x. apply child_in.
      rewrite parent_current; [exact Ht|]. exact (recorded_in _ _ Ht).
  - cbn [enter_opt leave_opt]. exists [], (call_cx q v). rewrite app_nil_r. split; [now destruct v|]. split; [intros Hg; unfold call_cx; now rewrite Hg|].
    intros Hg t Ht. unfold call_cx. now destruct (tq_guard q).
Qed.
Lemma winv_step P h w o : winv P h w -> tw_filters w = levels h -> (forall L, enabled L w = true -> records L w = true) -> NoDup (begins (h ++ [o])) ->
  (forall r, works o = Some r -> In r (traced h) -> exists rest, traced h = r :: rest) ->
  winv P (h ++ [o]) (tstep P w o).
Proof.
  intros I Hlv Hqu Hnd Hnest. destruct o as [use lvl log|log|r m on|r t calls|r t us|r|r sends|r].
  - apply (winv_filters P (h ++ [TConfig use lvl log]) w). apply winv_same; [exact I|now rewrite traced_snoc|discriminate].
  - apply (winv_filters P (h ++ [TLog log]) w). apply winv_same; [exact I|now rewrite traced_snoc|discriminate].
  - apply winv_begin; [exact I|exact Hlv|exact Hqu|]. rewrite begins_app in Hnd. cbn in Hnd. apply NoDup_remove_2 in Hnd. now rewrite app_nil_r in Hnd.
  - specialize (Hnest r eq_refl). cbn [tstep]. destruct (nget_req r w) as [q|] eqn:Hq; [|apply winv_same; [exact I|now rewrite traced_snoc|discriminate]].
    destruct (wi_stack _ _ _ I) as (gs & S1 & S2 & S4).
    assert (Hcur : forall g, tq_guard q = Some g -> current_cx w = nth g (tw_spans w) root_cx).
    { intros g Hg. apply (top_guard w r q g gs); auto. destruct (Hnest (proj1 (wi_guards _ _ _ I r q g Hq Hg))) as (rest & Hr). exists rest. now rewrite <- Hr. }
    assert (Hpar : forall g c, tq_guard q = Some g -> client_ctx P h r c -> in_trace c (parent_cx w)).
    { intros g c Hg Hc. destruct (g_guard _ _ _ (wi_good _ _ _ I r q c Hq Hc) g Hg) as [_ Hi]. rewrite <- (Hcur g Hg) in Hi. rewrite parent_current; [exact Hi|].
      exact (recorded_in _ _ Hi). }
    assert (Hin : forall g, In g gs -> exists r' q', nget_req r' w = Some q' /\ tq_guard q' = Some g).
    { intros g Hi. clear - S4 Hi. induction S4 as [|a b tr gs (z & Z1 & Z2) HF IH]; [destruct Hi|]. destruct Hi as [->|Hi]; [now exists a, z|now apply IH]. }
    destruct (ensure_span P r q t w) as [s w1] eqn:He.
    assert (K : winv P (h ++ [TApply r t calls]) w1 /\ tw_stack w1 = tw_stack w /\ tw_filters w1 = tw_filters w /\ length (tw_spans w) <= length (tw_spans w1) /\
                (forall n, s = Some n -> ~ In n gs /\ n < length (tw_spans w1)) /\
                (forall g c, tq_guard q = Some g -> client_ctx P h r c -> in_trace c (nth (match s with Some n => n | None => g end) (tw_spans w1) root_cx))).
    { unfold ensure_span in He. destruct (aget text_eqb t (tq_spans q)) as [s0|] eqn:Ht.
      - injection He as <- <-. apply (aget_In text_eqb text_eqb_eq) in Ht. split; [apply winv_same; [exact I|now rewrite traced_snoc|discriminate]|]. split; [reflexivity|].
        split; [reflexivity|]. split; [lia|]. split.
        + intros n ->. split; [|exact (wi_tasks _ _ _ I r q t n Hq Ht)]. intros Hi. destruct (Hin n Hi) as (r' & q' & G1 & G2). exact (wi_apart _ _ _ I r q t n r' q' Hq Ht G1 G2).
        + intros g c Hg Hc. destruct (wi_good _ _ _ I r q c Hq Hc) as [_ G2 G3]. destruct s0 as [n|]; [apply (G3 ltac:(congruence) t n Ht)|apply (G2 g Hg)].
      - unfold make_span in He. destruct (enabled L_info w) eqn:Hen.
        + cbn [new_span] in He. rewrite (Hqu _ Hen) in He. injection He as <- <-. set (n := length (tw_spans w)). split; [|split; [reflexivity|split; [reflexivity|split; [|split]]]].
          * eapply (winv_tasks P h w r q _ _ [child P n (parent_cx w)] ((t, Some n) :: tq_spans q)); [exact I|exact Hq|reflexivity|discriminate|reflexivity|reflexivity|reflexivity| |].
            -- intros x. rewrite get_set. reflexivity.
            -- cbn [tw_spans set_req]. intros u s [[= <- Hs]|Hi].
               ++ subst s. split; [rewrite app_length; cbn; unfold n; lia|]. split; [right; unfold n; lia|]. intros Hg c Hc.
                  destruct (tq_guard q) as [g|] eqn:Hgq; [|easy]. split; [rewrite app_length; cbn; unfold n; lia|].
                  rewrite app_nth2 by (unfold n; lia). unfold n at 1. rewrite Nat.sub_diag. cbn [nth]. apply child_in. exact (Hpar g c eq_refl Hc).
               ++ split; [pose proof (wi_tasks _ _ _ I r q u s Hq Hi); rewrite app_length; lia|]. split; [left; eauto|]. intros Hg c Hc. apply good_span_app.
                  exact (g_tasks _ _ _ (wi_good _ _ _ I r q c Hq Hc) Hg u s Hi).
          * cbn [tw_spans set_req]. rewrite app_length. lia.
          * intros n' Hn. injection Hn as Hn. subst n'. split; [|cbn [tw_spans set_req]; rewrite app_length; cbn; unfold n; lia]. intros Hi.
            destruct (Hin n Hi) as (r' & q' & G1 & G2). pose proof (proj2 (wi_guards _ _ _ I r' q' n G1 G2)). unfold n in *. lia.
          * intros g c Hg Hc. cbn [tw_spans set_req]. rewrite app_nth2 by (unfold n; lia). unfold n at 1. rewrite Nat.sub_diag. cbn [nth]. apply child_in. exact (Hpar g c Hg Hc).
        + injection He as <- <-. split; [|split; [reflexivity|split; [reflexivity|split; [cbn; lia|split; [discriminate|]]]]].
          * eapply (winv_tasks P h w r q _ _ [] ((t, None) :: tq_spans q)); [exact I|exact Hq|reflexivity|discriminate|symmetry; apply app_nil_r|reflexivity|reflexivity| |].
            -- intros x. rewrite get_set. reflexivity.
            -- cbn [tw_spans set_req]. intros u s [Hx|Hi]; [discriminate|]. split; [exact (wi_tasks _ _ _ I r q u s Hq Hi)|]. split; [left; eauto|]. intros Hg c Hc.
               exact (g_tasks _ _ _ (wi_good _ _ _ I r q c Hq Hc) Hg u s Hi).
          * intros g c Hg Hc. apply (g_guard _ _ _ (wi_good _ _ _ I r q c Hq Hc) g Hg). }
    destruct K as (K1 & K2 & Kf & Kl & K3 & K4). set (w2 := enter_opt s w1).
    assert (Hbr : In r (begins (h ++ [TApply r t calls]))) by (rewrite begins_app; apply in_or_app; left; exact (wi_begun _ _ _ I r q Hq)).
    assert (Hsp2 : tw_spans w2 = tw_spans w1 /\ tw_filters w2 = tw_filters w1 /\ tw_reqs w2 = tw_reqs w1 /\ tw_calls w2 = tw_calls w1) by (unfold w2; now destruct s).
    destruct Hsp2 as (Hsp2 & Hfi2 & Hre2 & Hca2).
    assert (Hleave : forall v, tw_stack v = tw_stack w2 -> leave_opt s v = mkTw (tw_filters v) (tw_spans v) (tw_stack w1) (tw_reqs v) (tw_calls v)).
    { intros v Hv. unfold w2 in Hv. destruct s as [n|]; cbn [leave_opt enter_opt] in *; [|destruct v; cbn in *; now subst]. unfold leave. rewrite Hv. unfold enter. cbn [tw_stack]. now rewrite pop_top. }
    destruct calls.
    + assert (Hltgs : forall x, In x gs -> x < length (tw_spans w1)).
      { intros x Hx. destruct (Hin x Hx) as (r' & q' & G1 & G2). pose proof (proj2 (wi_guards _ _ _ I r' q' x G1 G2)). lia. }
      destruct (call_in_spec P r q w2) as (xs & cx & C1 & C2 & C3).
      * rewrite Hsp2. intros x Hx. unfold w2 in Hx. assert (Hb : In x (tw_stack w1) -> fst x < length (tw_spans w1)).
        { rewrite K2, S1. intros Hy. apply in_map_iff in Hy as (y & <- & Hy). now apply Hltgs. }
        destruct s as [n|]; [|now apply Hb]. destruct Hx as [<-|Hx]; [exact (proj2 (K3 n eq_refl))|now apply Hb].
      * intros L. unfold enabled, records. rewrite Hfi2, Kf. exact (Hqu L).
      * rewrite C1, Hleave by reflexivity. cbn [add_call tw_filters tw_spans tw_reqs tw_calls]. rewrite Hsp2, Hfi2, Hre2, Hca2.
        apply (winv_call P _ (mkTw (tw_filters w1) (tw_spans w1 ++ xs) (tw_stack w1) (tw_reqs w1) (tw_calls w1)) r cx); [now apply winv_extend|exact Hbr|].
        intros c Hc. apply client_snoc in Hc; [|discriminate]. destruct (tq_guard q) as [g|] eqn:Hg; [|rewrite (C2 eq_refl); apply (g_otel _ _ _ (wi_good _ _ _ I r q c Hq Hc))].
        apply C3; [discriminate|]. specialize (K4 g c eq_refl Hc). unfold w2. destruct s as [n|].
        -- cbn [enter_opt]. rewrite (current_top (enter n w1) n gs); [exact K4|]. cbn [enter tw_stack map]. rewrite K2, S1, not_marked; [reflexivity|exact (proj1 (K3 n eq_refl))].
        -- cbn [enter_opt]. destruct (Hnest (proj1 (wi_guards _ _ _ I r q g Hq Hg))) as (rest & Hr). rewrite Hr in S4. inversion S4 as [|a b c' gs' (z & Z1 & Z2) HF' E1 E2]. subst gs.
           rewrite (current_top w1 b gs'); [|now rewrite K2]. replace b with g by congruence. exact K4.
    + rewrite Hleave by reflexivity. rewrite Hsp2, Hfi2, Hre2, Hca2. now destruct w1.
  - cbn [tstep]. destruct (nget_req r w) as [q|] eqn:Hq; [|apply winv_same; [exact I|now rewrite traced_snoc|discriminate]].
    destruct (aget text_eqb t (tq_spans q)) as [s0|] eqn:Ht; [|apply winv_same; [exact I|now rewrite traced_snoc|discriminate]].
    apply (aget_In text_eqb text_eqb_eq) in Ht.
    eapply (winv_tasks P h w r q _ _ []); [exact I|exact Hq|reflexivity|discriminate|symmetry; apply app_nil_r|reflexivity|reflexivity| |].
    + intros x. rewrite get_set. reflexivity.
    + cbn [tw_spans set_req]. intros u s Hi. assert (exists u', In (u', Some s) (tq_spans q)) as (u' & Hu).
      { apply in_app_or in Hi as [Hi|Hi]; [|eauto]. apply in_map_iff in Hi as (v & [= <- ->] & _). eauto. }
      split; [exact (wi_tasks _ _ _ I r q u' s Hq Hu)|]. split; [left; eauto|]. intros Hg c Hc. exact (g_tasks _ _ _ (wi_good _ _ _ I r q c Hq Hc) Hg u' s Hu).
  - specialize (Hnest r eq_refl). cbn [tstep]. destruct (nget_req r w) as [q|] eqn:Hq; [|apply winv_same; [exact I|now rewrite traced_snoc|discriminate]].
    destruct (wi_stack _ _ _ I) as (gs & S1 & S2 & S4).
    destruct (call_in_spec P r q w) as (xs & cx & C1 & C2 & C3); [|exact Hqu|].
    { rewrite S1. intros x Hx. apply in_map_iff in Hx as (y & <- & Hy). cbn [fst]. clear - S4 Hy I.
      assert (exists r' q', nget_req r' w = Some q' /\ tq_guard q' = Some y) as (r' & q' & G1 & G2).
      { clear I. induction S4 as [|a b tr gs (z & Z1 & Z2) HF IH]; [destruct Hy|]. destruct Hy as [->|Hy]; [now exists a, z|now apply IH]. }
      exact (proj2 (wi_guards _ _ _ I r' q' y G1 G2)). }
    rewrite C1. apply winv_call; [apply winv_extend; apply winv_same; [exact I|now rewrite traced_snoc|discriminate]|rewrite begins_app; apply in_or_app; left; exact (wi_begun _ _ _ I r q Hq)|].
    intros c Hc. apply client_snoc in Hc; [|discriminate]. pose proof (wi_good _ _ _ I r q c Hq Hc) as HG.
    destruct (tq_guard q) as [g|] eqn:Hg; [|rewrite (C2 eq_refl); apply (g_otel _ _ _ HG)]. apply C3; [discriminate|].
    rewrite (top_guard w r q g gs); auto; [apply (g_guard _ _ _ HG g Hg)|]. destruct (Hnest (proj1 (wi_guards _ _ _ I r q g Hq Hg))) as (rest & Hr). exists rest. now rewrite <- Hr.
  - cbn [tstep]. destruct (nget_req r w) as [q|] eqn:Hq.
    + set (q' := mkTreq (tq_otel q) None (tq_spans q)). set (w1 := set_req r q' (drop_guard q w)).
      assert (K : winv P (h ++ [TEnd r sends]) w1).
      { apply (winv_unguard P h w r q _ w1 (Some q')); auto.
        - right. now exists sends.
        - unfold w1, drop_guard. now destruct (tq_guard q).
        - unfold w1, drop_guard. now destruct (tq_guard q).
        - intros x. unfold w1. rewrite get_set. unfold drop_guard. now destruct (tq_guard q). }
      destruct sends; [|exact K]. apply winv_call; [exact K|rewrite begins_app; apply in_or_app; left; exact (wi_begun _ _ _ I r q Hq)|].
      intros c Hc. apply client_snoc in Hc; [|discriminate]. exact (g_otel _ _ _ (wi_good _ _ _ I r q c Hq Hc)).
    + apply winv_same; [exact I| |discriminate]. rewrite traced_snoc. cbn [traced1]. apply filter_id. now apply (untraced P h w).
  - cbn [tstep]. destruct (nget_req r w) as [q|] eqn:Hq.
    + apply (winv_unguard P h w r q _ _ None); auto.
      * unfold drop_guard. now destruct (tq_guard q).
      * unfold drop_guard. now destruct (tq_guard q).
      * intros x. rewrite get_del. unfold drop_guard. now destruct (tq_guard q).
    + apply winv_same; [exact I| |discriminate]. rewrite traced_snoc. cbn [traced1]. apply filter_id. now apply (untraced P h w).
Qed.
Lemma begins_prefix h o : NoDup (begins (h ++ [o])) -> NoDup (begins h).
Proof.
  rewrite begins_app. generalize (begins h) (begins [o]). intros a b. induction a as [|x a IH]; [constructor|]. cbn. intros H. inversion_clear H as [|? ? H1 H2].
  constructor; [intros Hi; apply H1; apply in_or_app; now left|now apply IH].
Qed.
Lemma step_filters P w o : tw_filters (tstep P w o) = levels1 (tw_filters w) o.
Proof.
  assert (Hc : forall r q v, tw_filters (call_in P r q v) = tw_filters v) by (intros; unfold call_in, make_span, new_span; now destruct (enabled L_debug v)).
  assert (Hl : forall s v, tw_filters (leave_opt s v) = tw_filters v) by (intros [s|] v; reflexivity).
  assert (He : forall s v, tw_filters (enter_opt s v) = tw_filters v) by (intros [s|] v; reflexivity).
  assert (Hd : forall q v, tw_filters (drop_guard q v) = tw_filters v) by (intros q v; unfold drop_guard; now destruct (tq_guard q)).
  destruct o as [use lvl log|log|r m on|r t calls|r t us|r|r sends|r]; cbn [tstep levels1]; try reflexivity.
  - cbn. now destruct (tw_filters w) as [[a b]|].
  - unfold new_span. now destruct (on && enabled L_info w).
  - destruct (nget_req r w) as [q|]; [|reflexivity]. destruct (ensure_span P r q t w) as [s w1] eqn:Hs.
    assert (Hw : tw_filters w1 = tw_filters w).
    { unfold ensure_span, make_span, new_span in Hs. destruct (aget text_eqb t (tq_spans q)); [injection Hs as _ <-; reflexivity|]. destruct (enabled L_info w); injection Hs as _ <-; reflexivity. }
    destruct calls; rewrite ?Hl, ?Hc, ?He; exact Hw.
  - destruct (nget_req r w) as [q|]; [|reflexivity]. now destruct (aget text_eqb t (tq_spans q)).
  - destruct (nget_req r w) as [q|]; [|reflexivity]. apply Hc.
  - destruct (nget_req r w) as [q|]; [|reflexivity]. destruct sends; apply Hd.
  - destruct (nget_req r w) as [q|]; [|reflexivity]. apply Hd.
Qed.
Lemma run_filters P h : tw_filters (trun P h) = levels h.
Proof.
  induction h as [|o h IH] using rev_ind; [reflexivity|]. unfold trun. rewrite fold_left_app. cbn [fold_left]. rewrite step_filters, levels_snoc. f_equal. exact IH.
Qed.
Lemma winv_run P h : NoDup (begins h) -> quiet h -> nested h -> winv P h (trun P h).
Proof.
  induction h as [|o h IH] using rev_ind; intros Hnd Hqu Hne.
  - constructor; cbn; try easy. exists []. repeat split; constructor.
  - unfold trun. rewrite fold_left_app. cbn [fold_left]. apply winv_step; [apply IH|apply run_filters| |exact Hnd|].
    + now apply begins_prefix in Hnd.
    + intros pre post r l -> Hl. apply (Hqu pre (post ++ [o]) r l); [now rewrite <- app_assoc|exact Hl].
    + intros pre o' post r -> Hw Hi. apply (Hne pre o' (post ++ [o]) r); auto. now rewrite <- app_assoc.
    + intros L. change (fold_left (tstep P) h tw0) with (trun P h). unfold enabled, records. rewrite run_filters. destruct (levels h) as [[r l]|] eqn:Hl; [|easy].
      pose proof (Hqu h [o] r l eq_refl Hl). intros Hx. apply orb_true_iff in Hx as [Hx|Hx]; [exact Hx|]. apply Nat.leb_le in Hx. apply Nat.leb_le. lia.
    + intros r Hw Hi. apply (Hne h o [] r); auto.
Qed.

(** * C113 *)
(** A parser of the header traceparent for the examples: the trace is the first byte of the value *)
Definition Pd (act : bool) : tparams := mkTp
  (fun m => match aget text_eqb (tx "traceparent") m with Some (c :: _) => Some (N_of_ascii c, 0%N) | _ => None end)
  (fun m => aget text_eqb (tx "baggage") m) (fun n => (1000 + N.of_nat n)%N) (fun n => N.of_nat n) act.
Definition from (s : string) : option headers := Some [(tx "traceparent", tx s)].
Definition dtrace (c : ascii) : N := N_of_ascii c.
(** Where the host never logs more than is recorded, and no request works while one that came later is
    on its way too, each call a request makes (the export of its spans included) is in the trace its
    client put it in. *)
Theorem C113_calls_are_in_the_trace_of_their_request_partial : forall P h r cx t,
  NoDup (begins h) -> quiet h -> nested h -> In (r, cx) (tw_calls (trun P h)) -> client_trace P h r t -> exists s, oc_trace cx = Some (t, s).
Proof.
  intros P h r cx t Hn Hq Hne Hi (m & on & s & Hb & Hp).
  destruct (wi_calls _ _ _ (winv_run P h Hn Hq Hne) r cx (t, tp_baggage P (h_to_map m)) Hi) as (H & _); [|exact H]. now exists m, on, s.
Qed.
Print Assumptions C113_calls_are_in_the_trace_of_their_request_partial.
(** Then they also have the baggage the client sent, unless it sent none. *)
Theorem C113_calls_have_the_baggage_of_their_request_partial : forall P h r cx m on t b,
  NoDup (begins h) -> quiet h -> nested h -> In (r, cx) (tw_calls (trun P h)) ->
  In (TBegin r (Some m) on) h -> tp_parent P (h_to_map m) = Some t -> tp_baggage P (h_to_map m) = Some b -> oc_bag cx = b.
Proof.
  intros P h r cx m on (t & s) b Hn Hq Hne Hi Hb Hp Hg.
  destruct (wi_calls _ _ _ (winv_run P h Hn Hq Hne) r cx (t, Some b) Hi) as (_ & H); [|exact (H b eq_refl)]. now exists m, on, s.
Qed.
Print Assumptions C113_calls_have_the_baggage_of_their_request_partial.

(** Reachable: two requests, the second within the first; each has a call for each of its tasks. *)
Definition ex113 : list top :=
  [TConfig true (Some (tx "DEBUG")) 3; TBegin 1 (from "a") true; TApply 1 (tx "0") true; TBegin 2 (from "b") true; TApply 2 (tx "0") true; TEnd 2 true;
   TLog 4; TApply 1 (tx "1") true; TEnd 1 true]%N.
Example C113_ex : NoDup (begins ex113) /\ quiet ex113 /\ nested ex113 /\ client_trace (Pd true) ex113 1 (dtrace "a") /\
  length (tw_calls (trun (Pd true) ex113)) = 5 /\
  map fst (filter (fun c => match oc_trace (snd c) with Some (t, _) => N.eqb t (dtrace "a") | None => false end) (tw_calls (trun (Pd true) ex113))) = [1; 1; 1]%N.
Proof.
  split; [|split; [|split; [|split; [|split; vm_compute; reflexivity]]]].
  - repeat constructor; cbn; intuition discriminate.
  - intros pre post r l H Hl. unfold ex113 in H.
    do 9 (destruct pre as [|? pre]; [vm_compute in Hl; first [discriminate|injection Hl as <- <-; lia]|injection H as <- H]).
    destruct pre; [|discriminate]. vm_compute in Hl. injection Hl as <- <-. lia.
  - intros pre o post r H Hw Hi. unfold ex113 in H.
    do 9 (destruct pre as [|? pre]; [injection H as <- <-; cbn in Hw; try discriminate; injection Hw as <-; cbn in *; intuition (try discriminate); eauto|injection H as <- H]).
    now destruct pre.
  - exists [(tx "traceparent", tx "a")], true, 0%N. split; [right; now left|reflexivity].
Qed.

Example C113_baggage_ex : map (fun c => (fst c, oc_bag (snd c))) (tw_calls (trun (Pd true)
  [TConfig true (Some (tx "INFO")) 3; TBegin 1 (Some [(tx "traceparent", tx "a"); (tx "baggage", tx "k=v")]) true; TApply 1 (tx "0") true; TEnd 1 true]%N)) =
  [(1%N, tx "k=v"); (1%N, tx "k=v")].
Proof. vm_compute. reflexivity. Qed.

(** Without that the claim is false: a request that came later is still on its way when the first one
    goes on, and so the next call of the first is sent with the trace of the other. *)
Definition mixed : list top :=
  [TConfig true (Some (tx "INFO")) 3; TBegin 1 (from "a") true; TApply 1 (tx "0") true; TBegin 2 (from "b") true; TApply 1 (tx "1") true]%N.
Theorem C113_calls_are_in_the_trace_of_their_request_refuted : forall act, exists h r r' cx t t' s,
  NoDup (begins h) /\ quiet h /\ r <> r' /\ client_trace (Pd act) h r t /\ client_trace (Pd act) h r' t' /\ t <> t' /\
  In (r, cx) (tw_calls (trun (Pd act) h)) /\ oc_trace cx = Some (t', s).
Proof.
  intros act. exists mixed, 1%N, 2%N, (mkOcx (Some (dtrace "b", 3%N)) []), (dtrace "a"), (dtrace "b"), 3%N.
  split; [repeat constructor; cbn; intuition discriminate|]. split.
  { intros pre post r l H Hl. unfold mixed in H.
    do 5 (destruct pre as [|? pre]; [vm_compute in Hl; first [discriminate|injection Hl as <- <-; lia]|injection H as <- H]).
    destruct pre; [|discriminate]. vm_compute in Hl. injection Hl as <- <-. lia. }
  split; [discriminate|].
  split; [exists [(tx "traceparent", tx "a")], true, 0%N; split; [right; now left|reflexivity]|].
  split; [exists [(tx "traceparent", tx "b")], true, 0%N; split; [cbn; auto|reflexivity]|]. split; [discriminate|].
  split; [|reflexivity]. destruct act; vm_compute; now left.
Qed.
(** And if entering a span makes its context the current one, a request whose client sent no trace is put
    in that of the request before it, if that is still on its way. *)
Theorem C113_requests_without_a_trace_join_another_refuted : exists h r r' cx t s,
  NoDup (begins h) /\ r <> r' /\ (forall t, ~ client_trace (Pd true) h r t) /\ client_trace (Pd true) h r' t /\
  In (r, cx) (tw_calls (trun (Pd true) h)) /\ oc_trace cx = Some (t, s).
Proof.
  exists [TConfig true (Some (tx "INFO")) 3; TBegin 1 (from "a") true; TBegin 2 (Some []) true; TApply 2 (tx "0") true]%N, 2%N, 1%N, (mkOcx (Some (dtrace "a", 2%N)) []), (dtrace "a"), 2%N.
  split; [repeat constructor; cbn; intuition discriminate|]. split; [discriminate|]. split.
  { intros t (m & on & s & [Hi|[Hi|[Hi|[Hi|[]]]]] & Hp); try discriminate. injection Hi as <- _. discriminate. }
  split; [exists [(tx "traceparent", tx "a")], true, 0%N; split; [right; now left|reflexivity]|]. split; [vm_compute; now left|reflexivity].
Qed.
(** Nor does it hold of a request alone, where the host logs more than is recorded: spans that are not
    recorded are made for the log, and the call is sent without any trace. With the default level INFO
    this is so as soon as the host logs at debug; without a default level (that is WARN), at info. *)
Theorem C113_verbose_logs_drop_the_trace_refuted : forall act level log,
  (level = Some (tx "INFO") /\ log = L_debug \/ level = None /\ log = L_info) ->
  exists h r cx t, begins h = [r] /\ nested h /\ hd_error h = Some (TConfig true level log) /\ client_trace (Pd act) h r t /\
    In (r, cx) (tw_calls (trun (Pd act) h)) /\ oc_trace cx = None.
Proof.
  intros act level log Hl. exists [TConfig true level log; TBegin 1 (from "a") true; TApply 1 (tx "0") true]%N, 1%N, root_cx, (dtrace "a").
  split; [reflexivity|]. split.
  { intros pre o post r H Hw Hi.
    do 3 (destruct pre as [|? pre]; [injection H as <- <-; cbn in Hw; try discriminate; injection Hw as <-;
      destruct Hl as [(-> & ->)|(-> & ->)]; vm_compute in Hi |- *; first [destruct Hi; fail|exists []; reflexivity|idtac]; now destruct Hi|injection H as <- H]). now destruct pre. }
  split; [reflexivity|]. split; [exists [(tx "traceparent", tx "a")], true, 0%N; split; [right; now left|reflexivity]|]. split; [|reflexivity].
  destruct act, Hl as [(-> & ->)|(-> & ->)]; vm_compute; now left.
Qed.
Print Assumptions C113_calls_are_in_the_trace_of_their_request_refuted.
Print Assumptions C113_requests_without_a_trace_join_another_refuted.
Print Assumptions C113_verbose_logs_drop_the_trace_refuted.

(** ** Requests that are not traced *)
Definition passes (P : tparams) (m : headers) (cx : ocx) : Prop :=
  (forall t, tp_parent P (h_to_map m) = Some t -> oc_trace cx = Some t) /\ (forall b, tp_baggage P (h_to_map m) = Some b -> oc_bag cx = b).
(** the request [r] came with the headers [m], and no span was made for it *)
Definition unspanned (h : list top) (r : N) (m : headers) : Prop :=
  exists pre on post, h = pre ++ TBegin r (Some m) on :: post /\ (on = false \/ spans_off (levels pre)).
Record uinv (P : tparams) (h : list top) (w : tworld) : Prop := {
  ui_begun : forall r q, nget_req r w = Some q -> In r (begins h);
  ui_callers : forall r cx, In (r, cx) (tw_calls w) -> In r (begins h);
  ui_req : forall r m q, unspanned h r m -> nget_req r w = Some q -> tq_guard q = None /\ passes P m (tq_otel q);
  ui_calls : forall r m cx, unspanned h r m -> In (r, cx) (tw_calls w) -> passes P m cx }.
Lemma begin_passes P m w : passes P m (begin_otel P (Some m) w).
Proof. unfold passes, begin_otel, extract. cbn. split; intros x ->; reflexivity. Qed.
Lemma unspanned_snoc h o r m : unspanned (h ++ [o]) r m -> unspanned h r m \/ exists on, o = TBegin r (Some m) on /\ (on = false \/ spans_off (levels h)).
Proof.
  intros (pre & on & post & He & H). destruct post as [|p post] using rev_ind.
  - apply app_inj_tail in He as [<- ->]. right. now exists on.
  - clear IHpost. left. rewrite app_comm_cons, app_assoc in He. apply app_inj_tail in He as [-> _]. now exists pre, on, post.
Qed.
Lemma unspanned_begun h r m : unspanned h r m -> In r (begins h).
Proof. intros (pre & on & post & -> & _). rewrite begins_app. apply in_or_app. right. now left. Qed.
(** a step that gives [r] the state [q'] and makes calls of [r] in the context [call_cx] or the request's own *)
Lemma uinv_upd P h o w w' r q : uinv P h w -> nget_req r w = Some q -> (forall x m on, o <> TBegin x m on) ->
  (forall x y, nget_req x w' = Some y -> x <> r /\ nget_req x w = Some y \/ x = r /\ tq_otel y = tq_otel q /\ (tq_guard q = None -> tq_guard y = None)) ->
  (forall x cx, In (x, cx) (tw_calls w') -> In (x, cx) (tw_calls w) \/ x = r /\ (tq_guard q = None -> cx = tq_otel q)) -> uinv P (h ++ [o]) w'.
Proof.
  intros [U1 U2 U3 U4] Hq Ho Hr Hc.
  assert (Hbe : begins (h ++ [o]) = begins h) by (rewrite begins_app; destruct o; cbn; try apply app_nil_r; exfalso; now eapply Ho).
  assert (Hin : forall x m, unspanned (h ++ [o]) x m -> unspanned h x m).
  { intros x m Hi. destruct (unspanned_snoc _ _ _ _ Hi) as [K|(on & K & _)]; [exact K|]. exfalso. exact (Ho _ _ _ K). }
  constructor.
  - intros x y Hx. rewrite Hbe. destruct (Hr x y Hx) as [[_ H]|(-> & _)]; eauto.
  - intros x cx Hx. rewrite Hbe. destruct (Hc x cx Hx) as [H|(-> & _)]; eauto.
  - intros x m y Hi Hx. apply Hin in Hi. destruct (Hr x y Hx) as [[_ H]|(-> & H1 & H2)]; [now apply (U3 x m y)|]. destruct (U3 r m q Hi Hq) as [G1 G2].
    split; [now apply H2|now rewrite H1].
  - intros x m cx Hi Hx. apply Hin in Hi. destruct (Hc x cx Hx) as [H|(-> & H)]; [now apply (U4 x m cx)|]. destruct (U3 r m q Hi Hq) as [G1 G2]. now rewrite (H G1).
Qed.
Lemma uinv_same P h w o : uinv P h w -> (forall x m on, o <> TBegin x m on) -> uinv P (h ++ [o]) w.
Proof.
  intros [U1 U2 U3 U4] Ho.
  assert (Hbe : begins (h ++ [o]) = begins h) by (rewrite begins_app; destruct o; cbn; try apply app_nil_r; exfalso; now eapply Ho).
  assert (Hin : forall x m, unspanned (h ++ [o]) x m -> unspanned h x m).
  { intros x m Hi. destruct (unspanned_snoc _ _ _ _ Hi) as [K|(on & K & _)]; [exact K|]. exfalso. exact (Ho _ _ _ K). }
  constructor; rewrite ?Hbe; eauto.
Qed.
Lemma uinv_step P h w o : uinv P h w -> tw_filters w = levels h -> NoDup (begins (h ++ [o])) -> uinv P (h ++ [o]) (tstep P w o).
Proof.
  intros U Hlv Hnd. destruct o as [use lvl log|log|r m on|r t calls|r t us|r|r sends|r].
  - destruct (uinv_same P h w (TConfig use lvl log) U) as [U1 U2 U3 U4]; [discriminate|]. constructor; assumption.
  - destruct (uinv_same P h w (TLog log) U) as [U1 U2 U3 U4]; [discriminate|]. constructor; assumption.
  - assert (Hr : ~ In r (begins h)) by (rewrite begins_app in Hnd; cbn in Hnd; apply NoDup_remove_2 in Hnd; now rewrite app_nil_r in Hnd).
    destruct U as [U1 U2 U3 U4]. assert (Hnr : forall m', ~ unspanned h r m').
    { intros m' Hi. apply Hr. exact (unspanned_begun h r m' Hi). }
    assert (Hget : forall x y, nget_req x (tstep P w (TBegin r m on)) = Some y -> x = r /\ tq_otel y = begin_otel P m w /\ (on = false \/ spans_off (levels h) -> tq_guard y = None) \/ x <> r /\ nget_req x w = Some y).
    { intros x y. cbn [tstep]. destruct (on && enabled L_info w) eqn:Hon; cbn [new_span].
      - unfold enter. change (nget_req x (mkTw ?f ?a ?b (tw_reqs ?c) ?d)) with (nget_req x c). rewrite get_set. destruct (N.eqb_spec x r) as [->|Hn]; [intros [= <-]; left; split; [reflexivity|]; split; [reflexivity|]|right; auto].
        apply andb_true_iff in Hon as [-> Hen]. intros [Hoff|Hoff]; [discriminate|]. exfalso. unfold enabled in Hen. rewrite Hlv in Hen. destruct (levels h) as [[a b]|]; [|discriminate].
        cbn [spans_off] in Hoff. apply orb_true_iff in Hen as [Hen|Hen]; apply Nat.leb_le in Hen; lia.
      - rewrite get_set. destruct (N.eqb_spec x r) as [->|Hn]; [intros [= <-]; left; auto|right; auto]. }
    assert (Hca : tw_calls (tstep P w (TBegin r m on)) = tw_calls w) by (cbn [tstep]; now destruct (on && enabled L_info w)).
    constructor.
    + intros x y Hx. rewrite begins_app. apply in_or_app. destruct (Hget x y Hx) as [(-> & _)|[_ H]]; [right; now left|left; eauto].
    + intros x cx Hx. rewrite begins_app. apply in_or_app. rewrite Hca in Hx. left. eauto.
    + intros x m' y Hi Hx. destruct (unspanned_snoc _ _ _ _ Hi) as [Hj|(on' & Hj & Hoff)]; clear Hi; rename Hj into Hi.
      * destruct (Hget x y Hx) as [(-> & _)|[_ H]]; [exfalso; now apply (Hnr m')|eauto].
      * injection Hi as <- -> <-. destruct (Hget r y Hx) as [(_ & H1 & H2)|[H _]]; [|easy]. split; [now apply H2|rewrite H1; apply begin_passes].
    + intros x m' cx Hi Hx. rewrite Hca in Hx. destruct (unspanned_snoc _ _ _ _ Hi) as [Hj|(on' & Hj & Hoff)]; [now apply (U4 x m')|]. injection Hj as <- -> <-. exfalso. apply Hr. eauto.
  - cbn [tstep]. destruct (nget_req r w) as [q|] eqn:Hq; [|apply uinv_same; [exact U|discriminate]]. destruct (ensure_span P r q t w) as [s w1] eqn:He.
    assert (K : tw_calls w1 = tw_calls w /\ forall x y, nget_req x w1 = Some y -> x <> r /\ nget_req x w = Some y \/ x = r /\ tq_otel y = tq_otel q /\ (tq_guard q = None -> tq_guard y = None)).
    { unfold ensure_span in He. destruct (aget text_eqb t (tq_spans q)).
      - injection He as _ <-. split; [reflexivity|]. intros x y Hx. destruct (N.eq_dec x r) as [->|Hn]; [right|left; auto]. rewrite Hq in Hx. injection Hx as <-. auto.
      - unfold make_span, new_span in He. destruct (enabled L_info w); injection He as _ <-; (split; [reflexivity|]); intros x y; rewrite get_set; (destruct (N.eqb_spec x r) as [->|Hn]; [intros [= <-]; right; auto|left; auto]). }
    destruct K as [K1 K2].
    apply (uinv_upd P h _ w _ r q U Hq); [discriminate| |].
    + intros x y Hx. apply K2. unfold nget_req in *. destruct (call_in_frame P r q (enter_opt s w1)) as [F1 _]. rewrite <- Hx. f_equal.
      destruct s as [n|], calls; cbn [leave_opt leave tw_reqs]; rewrite ?F1; reflexivity.
    + intros x cx Hx. rewrite <- K1. destruct (call_in_frame P r q (enter_opt s w1)) as [_ (cx' & F1 & F2)].
      assert (Hx' : In (x, cx) (tw_calls (if calls then call_in P r q (enter_opt s w1) else enter_opt s w1))) by (destruct s; exact Hx).
      assert (He2 : tw_calls (enter_opt s w1) = tw_calls w1) by now destruct s.
      destruct calls; [|rewrite He2 in Hx'; now left]. rewrite F1, He2 in Hx'. destruct Hx' as [[= <- <-]|Hx']; [right; auto|now left].
  - cbn [tstep]. destruct (nget_req r w) as [q|] eqn:Hq; [|apply uinv_same; [exact U|discriminate]]. destruct (aget text_eqb t (tq_spans q)); [|apply uinv_same; [exact U|discriminate]].
    apply (uinv_upd P h _ w _ r q U Hq); [discriminate| |now left].
    intros x y. rewrite get_set. destruct (N.eqb_spec x r) as [->|Hn]; [intros [= <-]; right; auto|left; auto].
  - cbn [tstep]. destruct (nget_req r w) as [q|] eqn:Hq; [|apply uinv_same; [exact U|discriminate]].
    apply (uinv_upd P h _ w _ r q U Hq); [discriminate| |].
    + intros x y Hx. destruct (call_in_frame P r q w) as [F1 _]. unfold nget_req in Hx. rewrite F1 in Hx. change (nget_req x w = Some y) in Hx.
      destruct (N.eq_dec x r) as [->|Hn]; [right|left; auto]. rewrite Hq in Hx. injection Hx as <-. auto.
    + intros x cx Hx. destruct (call_in_frame P r q w) as [_ (cx' & F1 & F2)]. rewrite F1 in Hx. destruct Hx as [[= <- <-]|Hx]; [right; auto|now left].
  - cbn [tstep]. destruct (nget_req r w) as [q|] eqn:Hq; [|apply uinv_same; [exact U|discriminate]].
    assert (Hcd : tw_calls (drop_guard q w) = tw_calls w /\ tw_reqs (drop_guard q w) = tw_reqs w) by (unfold drop_guard; now destruct (tq_guard q)). destruct Hcd as [C1 C2].
    apply (uinv_upd P h _ w _ r q U Hq); [discriminate| |].
    + intros x y Hx. assert (Hx' : nget_req x (set_req r (mkTreq (tq_otel q) None (tq_spans q)) (drop_guard q w)) = Some y) by now destruct sends.
      rewrite get_set in Hx'. unfold nget_req in Hx'. rewrite C2 in Hx'. destruct (N.eqb_spec x r) as [->|Hn]; [injection Hx' as <-; right; auto|left; auto].
    + intros x cx Hx. destruct sends; cbn [add_call set_req tw_calls] in Hx; rewrite C1 in Hx; [|now left]. destruct Hx as [[= <- <-]|Hx]; [now right|now left].
  - cbn [tstep]. destruct (nget_req r w) as [q|] eqn:Hq; [|apply uinv_same; [exact U|discriminate]].
    assert (Hcd : tw_calls (drop_guard q w) = tw_calls w /\ tw_reqs (drop_guard q w) = tw_reqs w) by (unfold drop_guard; now destruct (tq_guard q)). destruct Hcd as [C1 C2].
    apply (uinv_upd P h _ w _ r q U Hq); [discriminate| |].
    + intros x y. rewrite get_del. unfold nget_req. rewrite C2. destruct (N.eqb_spec x r) as [->|Hn]; [discriminate|left; auto].
    + intros x cx Hx. cbn [del_req tw_calls] in Hx. rewrite C1 in Hx. now left.
Qed.
Lemma uinv_run P h : NoDup (begins h) -> uinv P h (trun P h).
Proof.
  induction h as [|o h IH] using rev_ind; intros Hnd.
  { constructor; cbn; easy. }
  unfold trun. rewrite fold_left_app. cbn [fold_left]. apply uinv_step; [apply IH; now apply begins_prefix in Hnd|apply run_filters|exact Hnd].
Qed.

(** Without a tracing service for it (or with no spans made for requests at the time it came) every call of
    a request carries what the client sent: trace,
    parent span and baggage, whatever else happens. *)
Theorem C113_untraced_requests_pass_the_context_on : forall P h r m cx,
  NoDup (begins h) -> unspanned h r m -> In (r, cx) (tw_calls (trun P h)) ->
  (forall t, tp_parent P (h_to_map m) = Some t -> oc_trace cx = Some t) /\
  (forall b, tp_baggage P (h_to_map m) = Some b -> oc_bag cx = b).
Proof. intros P h r m cx Hn Hi Hc. exact (ui_calls _ _ _ (uinv_run P h Hn) r m cx Hi Hc). Qed.
Print Assumptions C113_untraced_requests_pass_the_context_on.

(** Reachable, beside a traced request that came later; the same if the level is WARN. *)
Definition hdr113 : headers := [(tx "traceparent", tx "a"); (tx "baggage", tx "x=1"); (tx "baggage", tx "y=2")].
Definition ex113u (level : string) (log : nat) (on : bool) : list top :=
  [TConfig true (Some (tx level)) log; TBegin 1 (Some hdr113) on; TBegin 2 (from "b") true; TApply 1 (tx "0") true]%N.
Example C113_untraced_ex : forall level log on, level = "INFO"%string /\ log = 4 /\ on = false \/ level = "WARN"%string /\ log = 2 /\ on = true ->
  NoDup (begins (ex113u level log on)) /\ unspanned (ex113u level log on) 1 hdr113 /\
  exists cx, In (1%N, cx) (tw_calls (trun (Pd true) (ex113u level log on))) /\ oc_trace cx = Some (dtrace "a", 0%N) /\ oc_bag cx = tx "x=1,y=2".
Proof.
  intros level log on H. split; [repeat constructor; cbn; intuition discriminate|]. split.
  { exists [TConfig true (Some (tx level)) log], on. eexists. split; [reflexivity|]. destruct H as [(-> & -> & ->)|(-> & -> & ->)]; [now left|right; vm_compute; lia]. }
  exists (mkOcx (Some (dtrace "a", 0%N)) (tx "x=1,y=2")). split; [|split; reflexivity]. destruct H as [(-> & -> & ->)|(-> & -> & ->)]; vm_compute; now left.
Qed.
