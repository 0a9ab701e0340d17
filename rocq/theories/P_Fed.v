(** Where the body fields known to a request come from. *)
From Coq Require Import String Ascii List NArith ZArith Bool Lia Arith.
From Verif Require Import Base Value Headers AttrPath Ctx CelProps CelEval Sse Body ValueBytes Tasks Exec Config Legacy Blueprint Factory Filter
  P_Frame P_Apply P_Exec P_Run P_Inv P_Ids P_Utf8 P_Sse P_Head.
Import ListNotations.
Open Scope list_scope.

(** * Vocabulary of the specification *)
(** the size and the end-of-stream flag last announced *)
Definition tells (src : source) (e : ev) : option (N * bool) :=
  match src, e with
  | SrcReq, EvReqBody n eos | SrcResp, EvRespBody n eos => Some (n, eos)
  | _, _ => None
  end.
Fixpoint announced (src : source) (l : log) : N * bool :=
  match l with
  | [] => (0%N, false)
  | e :: l' => match tells src e with Some x => x | None => announced src l' end
  end.
Definition read (E : env) (src : source) (l : log) (start len : N) : hres (option text) :=
  match src with SrcReq => h_reqbody E l start len | SrcResp => h_respbody E l start len end.
Definition total (bs : list text) : N := N.of_nat (length (concat bs)).
(** pieces of the body the host gave, one after the other: each up to the size announced by then, from
    the end of those before ([on]) or from the start *)
Inductive given (E : env) (src : source) (on : bool) : log -> list text -> Prop :=
| gv_none l : given E src on l []
| gv_later e l bs : given E src on l bs -> given E src on (e :: l) bs
| gv_piece l bs b start : given E src on l bs -> start = (if on then total bs else 0%N) -> (start < fst (announced src l))%N ->
    read E src l start (fst (announced src l) - start) = HOk (Some b) -> given E src on l (bs ++ [b]).
Definition ended (src : source) (l : log) : Prop := snd (announced src l) = true.
(** the last value for a field *)
Definition last_of (f : text) (raws : list (text * text)) (raw : text) : Prop :=
  exists a b, raws = a ++ (f, raw) :: b /\ forall r, ~ In (f, r) b.
(** the JSON parser is done with the bytes, or they are all there are *)
Definition json_over (E : env) (src : source) (l : log) (fields : list text) (bytes : text) : Prop :=
  o_jfeed E fields bytes = JDone \/ ended src l /\ o_jfinish E fields bytes = true.
Definition penultimate (evs : list event) (u : event) : Prop := exists pre t, evs = pre ++ [u; t].
(** the first content type among the headers names event streams *)
Definition stream_type (h : headers) : Prop :=
  exists a ct b pre post, h = a ++ (tx "content-type", ct) :: b /\ (forall v, ~ In (tx "content-type", v) a) /\ ct = pre ++ tx "text/event-stream" ++ post.
(** the response is an event stream by its headers, or it is none: by its headers, or as they cannot be had *)
Definition is_stream (E : env) (l : log) : Prop := exists after past h, l = after ++ past /\ basis E MResp past h /\ stream_type h.
Definition no_stream (E : env) (l : log) : Prop := exists after past, l = after ++ past /\
  ((exists h, basis E MResp past h /\ ~ stream_type h) \/ h_map E past MResp = HErr \/ exists v, In (EvSetProp (kuadrant_host_path p_resp_headers) v true) past).
(** the body of [src] has the value [w] for the field [f] *)
Inductive body_at (E : env) (src : source) (l : log) (f : text) (w : value) : Prop :=
| ba_json fields bs raw :      (* a store action, JSON *)
    given E src true l bs -> json_over E src l fields (concat bs) -> last_of f (o_jraw E fields (concat bs)) raw ->
    utf8_valid raw = true -> w = json_scalar E raw -> (src = SrcResp -> no_stream E l) -> body_at E src l f w
| ba_event bs evs sp u j y :   (* a store action, event stream *)
    src = SrcResp -> given E src false l bs -> Forall (fun b => utf8_valid b = true) bs -> ended src l ->
    sse_parse (concat bs) sparser0 = POk evs sp -> penultimate evs u ->
    o_json E (e_data u) = Some j -> o_pointer E j f = Some y -> w = sse_field_value E y -> is_stream E l -> body_at E src l f w
| ba_usage bs j y :            (* a usage action, JSON *)
    src = SrcResp -> given E src false l bs -> ended src l -> utf8_valid (concat bs) = true ->
    o_json E (concat bs) = Some j -> o_pointer E j f = Some y -> st_value y = Some w -> no_stream E l -> body_at E src l f w
| ba_usage_event bs evs sp u j y : (* a usage action, event stream: chunks that are not UTF-8 are left out *)
    src = SrcResp -> given E src false l bs -> ended src l ->
    sse_parse (concat (filter utf8_valid bs)) sparser0 = POk evs sp -> penultimate evs u ->
    o_json E (e_data u) = Some j -> o_pointer E j f = Some y -> st_value y = Some w -> is_stream E l -> body_at E src l f w.
Definition body_says (E : env) (src : source) (l : log) (f : text) (w : value) : Prop :=
  exists after past, l = after ++ past /\ body_at E src past f w.

(** * Facts about it *)
Definition untold (e : ev) : Prop := match e with EvReqBody _ _ | EvRespBody _ _ => False | _ => True end.
Lemma announced_app src evs l : Forall untold evs -> announced src (evs ++ l) = announced src l.
Proof. induction 1 as [|e evs He _ IH]; [reflexivity|]. cbn [app announced]. destruct src, e; try exact IH; destruct He. Qed.
Lemma given_app E src on evs l bs : given E src on l bs -> given E src on (evs ++ l) bs.
Proof. intros H. induction evs; [exact H|]. now constructor. Qed.
Lemma given_init E src on l bs b : given E src on l (bs ++ [b]) -> given E src on l bs.
Proof.
  intros H. remember (bs ++ [b]) as x eqn:Hx. induction H as [l|e l bs' _ IH|l bs' b' start H _ _ _ _].
  - now apply app_cons_not_nil in Hx.
  - constructor. auto.
  - apply app_inj_tail in Hx as [-> _]. exact H.
Qed.
Lemma given_prefix E src on l bs more : given E src on l (bs ++ more) -> given E src on l bs.
Proof.
  induction more as [|b more IH] using rev_ind; [now rewrite app_nil_r|]. rewrite app_assoc. intros H. apply IH. now apply given_init in H.
Qed.
Lemma says_app E src evs l f w : body_says E src l f w -> body_says E src (evs ++ l) f w.
Proof. intros (after & past & -> & H). exists (evs ++ after), past. now rewrite <- app_assoc. Qed.
Lemma is_app E evs l : is_stream E l -> is_stream E (evs ++ l).
Proof. intros (after & past & h & -> & H). exists (evs ++ after), past, h. now rewrite <- app_assoc. Qed.
Lemma no_app E evs l : no_stream E l -> no_stream E (evs ++ l).
Proof. intros (after & past & -> & H). exists (evs ++ after), past. now rewrite <- app_assoc. Qed.
Lemma says_now E src l f w : body_at E src l f w -> body_says E src l f w.
Proof. now exists [], l. Qed.

(** * The parsers *)
Definition jp_ok (E : env) (src : source) (l : log) (p : jparser) : Prop :=
  (exists bs more, given E src true l (bs ++ more) /\ jp_fed p = concat bs /\ jp_consumed p = total (bs ++ more) /\ (jp_complete p = false -> more = [])) /\
  NoDup (map fst (jp_extracted p)) /\ (forall f w, tget f (jp_extracted p) = Some w -> body_says E src l f w) /\ (src = SrcResp -> no_stream E l).
Definition latest (evs : list event) (lt : last_two) : Prop := lt = fold_left (fun l e => push_event e l) evs (None, None).
Definition sb_ok (E : env) (src : source) (l : log) (p : sbparser) : Prop :=
  (src = SrcResp /\ is_stream E l) /\
  (exists bs evs, given E src false l bs /\ Forall (fun b => utf8_valid b = true) bs /\
     sse_parse (concat bs) sparser0 = POk evs (sb_parser p) /\ latest evs (sb_last p)) /\
  NoDup (map fst (sb_extracted p)) /\ (forall f w, tget f (sb_extracted p) = Some w -> body_says E src l f w).
Definition bp_ok (E : env) (src : source) (l : log) (p : bparser) : Prop :=
  match p with BJson p => jp_ok E src l p | BSse p => sb_ok E src l p end.
Definition st_ok (E : env) (l : log) (s : strategy) : Prop :=
  match s with
  | StJson buf => no_stream E l /\ exists bs, given E SrcResp false l bs /\ buf = concat bs
  | StSse p lt => is_stream E l /\ exists bs evs, given E SrcResp false l bs /\ sse_parse (concat (filter utf8_valid bs)) sparser0 = POk evs p /\ latest evs lt
  end.
Lemma jp_ok_app E src evs l p : jp_ok E src l p -> jp_ok E src (evs ++ l) p.
Proof. intros [(bs & more & H1 & H2 & H3 & H4) (Hd & H & Hn)]. split; [exists bs, more; auto using given_app|]. auto using says_app, no_app. Qed.
Lemma sb_ok_app E src evs l p : sb_ok E src l p -> sb_ok E src (evs ++ l) p.
Proof. intros ((H0 & H0') & (bs & es & H1 & H2 & H3 & H4) & Hd & H). split; [split; [exact H0|now apply is_app]|]. split; [exists bs, es; auto using given_app|]. auto using says_app. Qed.
Lemma bp_ok_app E src evs l p : bp_ok E src l p -> bp_ok E src (evs ++ l) p.
Proof. destruct p; [apply jp_ok_app|apply sb_ok_app]. Qed.
Lemma st_ok_app E evs l s : st_ok E l s -> st_ok E (evs ++ l) s.
Proof. destruct s; [intros (H0 & bs & es & H1 & H2 & H3); split; [now apply is_app|]; exists bs, es|intros (H0 & bs & H1 & H2); split; [now apply no_app|]; exists bs]; auto using given_app. Qed.
Lemma total_snoc bs b : total (bs ++ [b]) = (total bs + N.of_nat (length b))%N.
Proof. unfold total. rewrite concat_app, app_length. cbn [concat]. rewrite app_nil_r. lia. Qed.

Lemma extract_raw_spec E raws : forall acc ex f w, extract_raw E raws acc = Some ex -> tget f ex = Some w ->
  (exists raw, last_of f raws raw /\ utf8_valid raw = true /\ w = json_scalar E raw) \/ tget f acc = Some w.
Proof.
  induction raws as [|[g b] raws IH]; intros acc ex f w; cbn [extract_raw]; [intros [= ->]; auto|].
  destruct (utf8_valid b) eqn:Hb; [|discriminate]. intros He Hg. 
  destruct (IH _ _ _ _ He Hg) as [(raw & (x & y & -> & Hy) & H2 & H3)|H].
  - left. exists raw. split; [|auto]. exists ((g, b) :: x), y. auto.
  - assert (Hn : text_eq_dec f g = text_eq_dec f g) by reflexivity. clear Hn.
    destruct (in_dec (list_eq_dec ascii_dec) f (map fst raws)) as [Hi|Hi].
    + left. clear IH. 
      assert (G : exists raw, last_of f raws raw).
      { clear - Hi. induction raws as [|[h c] raws IH]; [destruct Hi|]. destruct (in_dec (list_eq_dec ascii_dec) f (map fst raws)) as [Hr|Hr].
        - destruct (IH Hr) as (raw & x & y & -> & Hy). exists raw, ((h, c) :: x), y. auto.
        - destruct Hi as [Hi|Hi]; [|easy]. cbn in Hi. subst h. exists c, [], raws. split; [reflexivity|]. intros r Hr'. apply Hr. change f with (fst (f, r)). now apply in_map. }
      destruct G as (raw & x & y & -> & Hy). exists raw. split; [exists ((g, b) :: x), y; auto|].
      assert (KK : forall x acc, extract_raw E (x ++ (f, raw) :: y) acc = Some ex -> utf8_valid raw = true /\ tget f ex = Some (json_scalar E raw)).
      { clear - Hy. induction x as [|[h c] x IH]; intros acc; cbn [app extract_raw].
        - destruct (utf8_valid raw); [|discriminate]. intros H. split; [reflexivity|].
          assert (G : forall acc, tget f acc = Some (json_scalar E raw) -> extract_raw E y acc = Some ex -> tget f ex = Some (json_scalar E raw)).
          { clear H acc. induction y as [|[h c] y IHy]; intros acc Ha; cbn [extract_raw]; [now intros [= <-]|]. destruct (utf8_valid c); [|discriminate]. apply IHy.
            - intros r Hr. apply (Hy r). now right.
            - rewrite (aget_aset_other text_eqb text_eqb_eq); [exact Ha|]. intros <-. apply (Hy c). now left. }
          apply (G _ (aget_aset_same text_eqb text_eqb_eq _ _ _) H).
        - destruct (utf8_valid c); [|discriminate]. apply IH. }
      destruct (KK _ _ He) as [H1 H2]. split; [exact H1|]. congruence.
    + destruct (text_eq_dec f g) as [->|Hn].
      * left. exists b. rewrite (aget_aset_same text_eqb text_eqb_eq) in H. split; [|split; congruence].
        exists [], raws. split; [reflexivity|]. intros r Hr. apply Hi. change g with (fst (g, r)). now apply in_map.
      * right. rewrite (aget_aset_other text_eqb text_eqb_eq) in H by exact Hn. exact H.
Qed.
Lemma extract_raw_nodup E raws : forall acc ex, extract_raw E raws acc = Some ex -> NoDup (map fst acc) -> NoDup (map fst ex).
Proof.
  induction raws as [|[g b] raws IH]; intros acc ex; cbn [extract_raw]; [now intros [= ->]|]. destruct (utf8_valid b); [|discriminate]. intros H Hd.
  eapply IH; [exact H|]. now apply (NoDup_aset text_eqb text_eqb_eq).
Qed.
Lemma jp_extract_ok E src l p p' : json_over E src l (jp_fields p) (jp_fed p) -> jp_ok E src l p -> jp_extract E p = Some p' -> jp_ok E src l p'.
Proof.
  intros Ho [(bs & more & H1 & H2 & H3 & H4) (Hd & H & Hns)]. unfold jp_extract. destruct (extract_raw E _ _) as [ex|] eqn:He; [|discriminate]. intros [= <-].
  split; [exists bs, more; auto|]. cbn [jp_extracted]. split; [eapply extract_raw_nodup; eauto|]. split; [|exact Hns]. intros f w Hw. destruct (extract_raw_spec _ _ _ _ _ _ He Hw) as [(raw & R1 & R2 & R3)|Hw']; [|auto].
  apply says_now. rewrite H2 in R1, Ho. eapply ba_json; [eapply given_prefix; exact H1|exact Ho|exact R1|exact R2|exact R3|exact Hns].
Qed.
Lemma jp_feed_ok E src l p b p' : (jp_consumed p < fst (announced src l))%N -> read E src l (jp_consumed p) (fst (announced src l) - jp_consumed p) = HOk (Some b) ->
  jp_ok E src l p -> jp_feed E b p = Some p' -> jp_ok E src l p'.
Proof.
  intros Hlt Hr [(bs & more & H1 & H2 & H3 & H4) (Hd & H)]. unfold jp_feed.
  assert (G : given E src true l ((bs ++ more) ++ [b])) by (econstructor; [exact H1|reflexivity|now rewrite <- H3|now rewrite <- H3]).
  assert (Gt : (jp_consumed p + N.of_nat (length b))%N = total ((bs ++ more) ++ [b])) by (rewrite total_snoc; lia).
  destruct (jp_complete p) eqn:Hc.
  - intros [= <-]. split; [|split; [exact Hd|exact H]]. exists bs, (more ++ [b]). rewrite app_assoc. cbn [jp_fed jp_consumed jp_complete]. split; [exact G|]. split; [exact H2|]. split; [exact Gt|discriminate].
  - specialize (H4 eq_refl). subst more. rewrite app_nil_r in *.
    assert (KK : forall cm, jp_ok E src l (mkJp (jp_fields p) (jp_fed p ++ b) (jp_extracted p) (jp_consumed p + N.of_nat (length b)) cm)).
    { intros cm. split; [|split; [exact Hd|exact H]]. exists (bs ++ [b]), []. rewrite app_nil_r. cbn [jp_fed jp_consumed]. split; [exact G|]. split; [|auto].
      rewrite H2, concat_app. cbn. now rewrite app_nil_r. }
    destruct (o_jfeed E (jp_fields p) (jp_fed p ++ b)) eqn:Hf; [|intros [= <-]; apply KK|discriminate].
    apply jp_extract_ok; [left; exact Hf|apply KK].
Qed.
Lemma jp_finalize_ok E src l p p' : ended src l -> jp_ok E src l p -> jp_finalize E p = Some p' -> jp_ok E src l p'.
Proof. intros He Hp. unfold jp_finalize. destruct (o_jfinish _ _ _) eqn:Hf; [|discriminate]. apply jp_extract_ok; [right; auto|exact Hp]. Qed.

Lemma sse_more a b p evs p1 evs' p2 : utf8_valid b = true -> utf8_valid a = true -> sse_parse a p = POk evs p1 -> sse_parse b p1 = POk evs' p2 -> sse_parse (a ++ b) p = POk (evs ++ evs') p2.
Proof.
  intros Hb Ha. rewrite (parse_lines a p Ha), (parse_lines (a ++ b) p (valid_app _ _ Ha Hb)). rewrite app_assoc, (lines_app (sp_buf p ++ a) b).
  destruct (lines (sp_buf p ++ a)) as [l1 r1]. destruct (feed_lines (sp_bld p) l1) as [e1 b1] eqn:H1. intros [= <- <-].
  rewrite (parse_lines b _ Hb). cbn [sp_buf sp_bld]. destruct (lines (r1 ++ b)) as [l2 r2].
  rewrite feed_app, H1. destruct (feed_lines b1 l2) as [e2 b2]. now intros [= <- <-].
Qed.
Lemma valid_concat bs : Forall (fun b => utf8_valid b = true) bs -> utf8_valid (concat bs) = true.
Proof. induction 1 as [|b bs Hb _ IH]; [reflexivity|]. cbn. now apply valid_app. Qed.
Lemma parse_invalid b p : utf8_valid b = false -> sse_parse b p = PErr p.
Proof. intros H. unfold sse_parse. now rewrite H. Qed.
Lemma parse_valid b p : utf8_valid b = true -> exists evs p', sse_parse b p = POk evs p'.
Proof. intros H. rewrite parse_lines by exact H. destruct (lines _) as [ls r]. destruct (feed_lines _ ls). eauto. Qed.
Lemma latest_more evs evs' lt : latest evs lt -> latest (evs ++ evs') (fold_left (fun l e => push_event e l) evs' lt).
Proof. unfold latest. intros ->. now rewrite fold_left_app. Qed.
Lemma latest_prev evs lt u : latest evs lt -> snd lt = Some u -> penultimate evs u.
Proof.
  unfold latest. intros ->. destruct (rev evs) as [|t r] eqn:Hr.
  { apply (f_equal (@rev _)) in Hr. rewrite rev_involutive in Hr. subst evs. discriminate. }
  apply (f_equal (@rev _)) in Hr. rewrite rev_involutive in Hr. cbn [rev] in Hr. subst evs. rewrite fold_left_app. cbn [fold_left push_event snd].
  destruct r as [|v r]; [discriminate|]. cbn [rev]. rewrite fold_left_app. cbn [fold_left push_event fst]. intros [= ->].
  exists (rev r), t. now rewrite <- app_assoc.
Qed.
Lemma sb_feed_ok E l p b p' : (0 < fst (announced SrcResp l))%N -> read E SrcResp l 0 (fst (announced SrcResp l) - 0) = HOk (Some b) ->
  sb_ok E SrcResp l p -> sb_feed b p = Some p' -> sb_ok E SrcResp l p'.
Proof.
  intros Hlt Hr (H0 & (bs & evs & H1 & H2 & H3 & H4) & Hd & H). unfold sb_feed. destruct (sb_complete p); [intros [= <-]; split; [exact H0|]; split; [exists bs, evs; auto|split; [exact Hd|exact H]]|].
  destruct (utf8_valid b) eqn:Hb; [|now rewrite parse_invalid]. destruct (sse_parse b (sb_parser p)) as [es sp| |] eqn:Hp; try discriminate. intros [= <-].
  split; [exact H0|]. split; [|split; [exact Hd|exact H]]. exists (bs ++ [b]), (evs ++ es). split; [econstructor; eauto|]. split; [apply Forall_app; auto|]. cbn [sb_parser sb_last]. split; [|now apply latest_more].
  rewrite concat_app. cbn [concat]. rewrite app_nil_r. eapply sse_more; eauto. now apply valid_concat.
Qed.
Lemma sb_finalize_ok E src l p p' : ended src l -> sb_ok E src l p -> sb_finalize E p = Some p' -> sb_ok E src l p'.
Proof.
  intros He (H0 & (bs & evs & H1 & H2 & H3 & H4) & Hd & H). unfold sb_finalize. destruct (snd (sb_last p)) as [u|] eqn:Hu; [|intros [= <-]; split; [exact H0|]; split; [exists bs, evs; auto|split; [exact Hd|exact H]]].
  destruct (o_json E (e_data u)) as [j|] eqn:Hj; [|discriminate]. intros [= <-]. split; [exact H0|]. split; [exists bs, evs; auto|]. cbn [sb_extracted].
  split.
  { clear - Hd. revert Hd. generalize (sb_extracted p). induction (sb_fields p) as [|g fs IH]; intros acc Hd; cbn [fold_left]; [exact Hd|]. apply IH. destruct (o_pointer E j g); [now apply (NoDup_aset text_eqb text_eqb_eq)|exact Hd]. }
  assert (KK : forall fs acc, (forall f w, tget f acc = Some w -> body_says E src l f w) -> forall f w,
    tget f (fold_left (fun acc f => match o_pointer E j f with Some v => tset f (sse_field_value E v) acc | None => acc end) fs acc) = Some w -> body_says E src l f w).
  { induction fs as [|g fs IH]; intros acc Ha f w; cbn [fold_left]; [apply Ha|]. apply IH. clear IH f w. intros f w. destruct (o_pointer E j g) as [y|] eqn:Hy; [|apply Ha].
    destruct (text_eq_dec f g) as [->|Hn]; [rewrite (aget_aset_same text_eqb text_eqb_eq)|rewrite (aget_aset_other text_eqb text_eqb_eq) by exact Hn; apply Ha].
    intros [= <-]. apply says_now. destruct H0 as [H0 H0']. eapply ba_event; eauto. eapply latest_prev; eauto. }
  now apply KK.
Qed.
Lemma bp_finalize_ok E src l p p' : ended src l -> bp_ok E src l p -> bp_finalize E p = Some p' -> bp_ok E src l p'.
Proof.
  intros He Hp. destruct p as [p|p]; cbn [bp_finalize].
  - destruct (jp_finalize E p) eqn:H; [|discriminate]. intros [= <-]. cbn in *. eapply jp_finalize_ok; eauto.
  - destruct (sb_finalize E p) eqn:H; [|discriminate]. intros [= <-]. cbn in *. eapply sb_finalize_ok; eauto.
Qed.
Lemma bp_extracted_ok E src l p f w : bp_ok E src l p -> tget f (bp_extracted p) = Some w -> body_says E src l f w.
Proof. destruct p; [intros (_ & _ & H & _)|intros (_ & _ & _ & H)]; apply H. Qed.
Lemma bp_extracted_nodup E src l p : bp_ok E src l p -> NoDup (map fst (bp_extracted p)).
Proof. destruct p; [intros (_ & H & _)|intros (_ & _ & H & _)]; apply H. Qed.

(** ** The bodies *)
Record bodies0 (E : env) (c : ctx) : Prop := {
  bo_size : forall src, announced src (c_log c) = (b_size (src_body src c), b_eos (src_body src c));
  bo_vals : forall src f w, tget f (b_vals (src_body src c)) = Some w -> body_says E src (c_log c) f w
}.
Lemma bodies_app E evs c c' : Forall untold evs -> c_log c' = evs ++ c_log c -> c_reqb c' = c_reqb c -> c_respb c' = c_respb c -> bodies0 E c -> bodies0 E c'.
Proof.
  intros He Hl H1 H2 [S1 S2]. assert (Hs : forall src, src_body src c' = src_body src c) by (intros []; auto).
  constructor; intros src; rewrite Hl, Hs; [rewrite announced_app by exact He; apply S1|]. intros f w Hw. now apply says_app, S2.
Qed.
Lemma populate_vals kvs : forall b f w, tget f (b_vals (fold_left (fun b kv => set_value (fst kv) (snd kv) b) kvs b)) = Some w -> In (f, w) kvs \/ tget f (b_vals b) = Some w.
Proof.
  induction kvs as [|[g v] kvs IH]; intros b f w; cbn [fold_left]; [auto|]. intros H. apply IH in H as [H|H]; [left; now right|]. cbn [set_value b_vals fst snd] in H.
  destruct (text_eq_dec f g) as [->|Hn]; [rewrite (aget_aset_same text_eqb text_eqb_eq) in H; injection H as ->; left; now left|].
  rewrite (aget_aset_other text_eqb text_eqb_eq) in H by exact Hn. auto.
Qed.
Lemma In_tget {V} k (v : V) m : NoDup (map fst m) -> In (k, v) m -> tget k m = Some v.
Proof.
  induction m as [|[k2 v2] m IH]; [easy|]. cbn [map fst aget]. intros H. inversion_clear H as [|? ? Hn Hd]. intros [[= -> ->]|Hi]; [now rewrite text_eqb_refl|].
  destruct (text_eqb k k2) eqn:Hk; [|auto]. apply text_eqb_eq in Hk. subst k2. exfalso. apply Hn. change k with (fst (k, v)). now apply in_map.
Qed.
Lemma populate_size kvs : forall b, b_size (fold_left (fun b kv => set_value (fst kv) (snd kv) b) kvs b) = b_size b /\ b_eos (fold_left (fun b kv => set_value (fst kv) (snd kv) b) kvs b) = b_eos b.
Proof. induction kvs as [|[g v] kvs IH]; intros b; cbn [fold_left]; [auto|]. now destruct (IH (set_value g v b)). Qed.

Lemma src_body_set src b c : src_body src (src_set src b c) = b.
Proof. now destruct src. Qed.
Lemma src_log src b c : c_log (src_set src b c) = c_log c.
Proof. now destruct src. Qed.
(** replacing the values of one body by known ones *)
Lemma bodies_set E src b c : bodies0 E c -> b_size b = b_size (src_body src c) -> b_eos b = b_eos (src_body src c) ->
  (forall f w, tget f (b_vals b) = Some w -> body_says E src (c_log c) f w) -> bodies0 E (src_set src b c).
Proof.
  intros [S1 S2] H1 H2 H3. constructor; intros src'; rewrite src_log.
  - destruct src, src'; cbn in *; rewrite ?H1, ?H2; apply S1.
  - destruct src, src'; cbn in *; auto; apply (S2 SrcReq) || apply (S2 SrcResp).
Qed.
(** ** Feeding a parser *)
Lemma feed_parser_ok E src p c p' c' : bodies0 E c -> bp_ok E src (c_log c) p -> feed_parser E src p c = RAvail (p', c') ->
  bp_ok E src (c_log c) p' /\ bodies0 E c' /\ c_log c' = c_log c.
Proof.
  intros HB Hp. unfold feed_parser. pose proof (bo_size _ _ HB src) as Hs. set (b := src_body src c) in *.
  destruct (N.eqb (b_size b) 0 && negb (b_eos b)); [discriminate|].
  match goal with |- match ?x with _ => _ end = _ -> _ => destruct x as [|p1|] eqn:Hf end; try discriminate.
  assert (Hp1 : bp_ok E src (c_log c) p1).
  { revert Hf. destruct (N.ltb_spec (bp_consumed p) (b_size b)) as [Hlt|Hge]; [|now intros [= <-]].
    destruct (src_read E src (bp_consumed p) (b_size b - bp_consumed p) c) as [[x|]| |] eqn:Hr; try discriminate.
    destruct (bp_feed E x p) as [q|] eqn:Hq; [|discriminate]. intros [= <-]. destruct p as [jp|sb]; cbn [bp_feed bp_consumed] in *.
    - destruct (jp_feed E x jp) as [jp'|] eqn:Hj; [|discriminate]. injection Hq as <-. cbn in *. eapply (jp_feed_ok E src _ jp x); [rewrite Hs; exact Hlt| |exact Hp|exact Hj].
      rewrite Hs. destruct src; exact Hr.
    - destruct (sb_feed x sb) as [sb'|] eqn:Hj; [|discriminate]. injection Hq as <-. cbn in *. pose proof Hp as ((-> & _) & _). eapply (sb_feed_ok E _ sb x); [rewrite Hs; exact Hlt| |exact Hp|exact Hj].
      rewrite Hs. exact Hr. }
  match goal with |- match ?x with _ => _ end = _ -> _ => destruct x as [p2|] eqn:Hf2 end; try discriminate. intros [= <- <-].
  assert (Hp2 : bp_ok E src (c_log c) p2).
  { revert Hf2. destruct (b_eos b) eqn:He; [|now intros [= <-]]. destruct (bp_finalize E p1) as [q|] eqn:Hq; [|discriminate]. destruct (bp_remaining q); [|discriminate].
    intros [= <-]. eapply bp_finalize_ok; eauto. unfold ended. now rewrite Hs. }
  split; [exact Hp2|]. split; [|apply src_log]. apply bodies_set; [exact HB|apply populate_size|apply populate_size|].
  intros f w Hw. apply populate_vals in Hw as [Hw|Hw]; [|now apply (bo_vals _ _ HB)]. eapply bp_extracted_ok; [exact Hp2|]. apply In_tget; [eapply bp_extracted_nodup; exact Hp2|exact Hw].
Qed.
(** what is known of the response headers *)
Definition heads (E : env) (c : ctx) : Prop :=
  hcache E c /\ forall b, cache_get p_resp_headers c = Some (CBytes b) -> exists v, In (EvSetProp (kuadrant_host_path p_resp_headers) v true) (c_log c).
Lemma heads_steady : steady heads.
Proof.
  constructor.
  - intros E c c' Hx [H1 H2]. split; [now apply (hc_extf E c)|]. intros b Hb. destruct (cache_get p_resp_headers c) as [v|] eqn:Hg.
    + pose proof (ext_cached _ _ _ _ (proj1 Hx) Hg) as Hc. rewrite Hc in Hb. injection Hb as ->. rewrite (ext_log _ _ (proj1 Hx)). now apply (H2 b).
    + destruct Hx as [_ Hx]. destruct (Hx _ _ Hg Hb) as (q & Q1 & Q2). symmetry in Q1. apply resp_headers_key in Q1. subst q.
      destruct (fetch_target E (c_log c) MResp _ Q2) as (h & [=] & _).
  - intros E c c' Hl Hc [H1 H2]. split; [now apply (hc_same E c)|]. unfold cache_get in *. now rewrite Hl, Hc.
  - intros E e c He [H1 H2]. split; [apply (k_emit _ hc_steady E e c He H1)|]. intros b Hb. destruct (H2 b Hb) as (v & Hv). exists v. now right.
  - intros E p v c r c' Hs [H1 H2]. split; [now apply (hc_set_attribute E p v c r)|]. revert Hs. unfold set_attribute. cbv zeta. destruct (h_setprop E (c_log c) (kuadrant_host_path p) v) as [u| |]; intros [= <- <-] b Hb.
    + change p_resp_headers with (target_path MResp) in Hb. rewrite path_put in Hb. cbn [cache_put with_cache emit with_log c_log hok].
      destruct (text_eq_dec _ _) as [He|He]; [apply resp_headers_key in He; subst p; exists v; now left|]. destruct (H2 b Hb) as (w & Hw). exists w. now right.
    + destruct (H2 b Hb) as (w & Hw). exists w. now right.
    + destruct (H2 b Hb) as (w & Hw). exists w. now right.
  - intros E m h c r c' Hs [H1 H2]. split; [now apply (hc_set_headers E m h c r)|]. revert Hs. unfold set_headers. cbv zeta. destruct (h_setmap E (c_log c) m h) as [u| |]; intros Hs b Hb.
    + assert (c' = cache_put (target_path m) (CHeaders h) (emit (EvSetMap m h true) c)) as -> by (destruct m; now injection Hs).
      change p_resp_headers with (target_path MResp) in Hb. rewrite path_put in Hb. cbn [cache_put with_cache emit with_log c_log].
      destruct (text_eq_dec _ _) as [He|He]; [discriminate|]. destruct (H2 b Hb) as (w & Hw). exists w. now right.
    + assert (c' = emit (EvSetMap m h false) c) as -> by (destruct m; now injection Hs). destruct (H2 b Hb) as (w & Hw). exists w. now right.
    + assert (c' = emit (EvSetMap m h false) c) as -> by (destruct m; now injection Hs). destruct (H2 b Hb) as (w & Hw). exists w. now right.
Qed.
Lemma sse_type h : is_sse_type h = true <-> stream_type h.
Proof.
  unfold is_sse_type, h_get. induction h as [|[k v] h IH]; cbn [find fst option_map].
  - split; [discriminate|]. intros (a & ct & b & pre & post & H & _). now destruct a.
  - destruct (text_eqb k (tx "content-type")) eqn:Hk.
    + apply text_eqb_eq in Hk. subst k. cbn [option_map snd]. rewrite contains_sub_spec. split.
      * intros (pre & post & ->). exists [], (pre ++ tx "text/event-stream" ++ post), h, pre, post. split; [reflexivity|]. split; [intros v []|reflexivity].
      * intros (a & ct & b & pre & post & H & Hn & Hc).
        destruct a as [|x a]; cbn [app] in H. { exists pre, post. injection H as Hv _. now rewrite Hv. } destruct (Hn v). left. injection H as Hx _. now symmetry.
    + assert (Hne : k <> tx "content-type") by (intros ->; now rewrite text_eqb_refl in Hk). rewrite IH. split.
      * intros (a & ct & b & pre & post & -> & Hn & ->). exists ((k, v) :: a), (pre ++ tx "text/event-stream" ++ post), b, pre, post. split; [reflexivity|]. split; [|reflexivity].
        intros w [[= -> _]|Hi]; [now apply Hne|now apply (Hn w)].
      * intros (a & ct & b & pre & post & H & Hn & ->). destruct a as [|x a]; cbn [app] in H; [injection H as Hk0 _ _; now destruct Hne|]. injection H as Hx ->.
        exists a, (pre ++ tx "text/event-stream" ++ post), b, pre, post. split; [reflexivity|]. split; [|reflexivity]. intros w Hi. apply (Hn w). now right.
Qed.
(** what headers that were read say *)
Lemma headers_read E c r c1 : read_headers E p_resp_headers c = (r, c1) -> heads E c1 ->
  match r with
  | RPending => True
  | RAvail h => basis E MResp (c_log c1) h
  | RErr => h_map E (c_log c1) MResp = HErr \/ exists v, In (EvSetProp (kuadrant_host_path p_resp_headers) v true) (c_log c1)
  end.
Proof.
  intros Hr [H1 H2]. specialize (H1 MResp). cbn [target_path] in H1. revert Hr. unfold read_headers, read_attr. destruct (cache_get p_resp_headers c) as [v|] eqn:Hg.
  - destruct v as [b|h]; intros [= <- <-]; [right; now apply (H2 b)|now rewrite Hg in H1].
  - destruct (fetch E (c_log c) p_resp_headers) as [v| |] eqn:Hf; [|intros [= <- <-]; exact Logic.I|].
    + destruct (fetch_target E (c_log c) MResp v Hf) as (h & -> & Hm). intros [= <- <-].
      change p_resp_headers with (target_path MResp) in H1. rewrite path_put in H1. destruct (text_eq_dec _ _) as [_|Hn]; [exact H1|now destruct Hn].
    + intros [= <- <-]. left. revert Hf. unfold fetch. replace (path_eqb p_resp_headers p_req_headers) with false by reflexivity. replace (path_eqb p_resp_headers p_resp_headers) with true by reflexivity.
      destruct (h_map E (c_log c) MResp); congruence.
Qed.
Lemma create_parser_ok E src fields c p c1 : create_parser E src fields c = (RAvail p, c1) -> heads E c1 -> ext c c1 /\ bp_ok E src (c_log c1) p.
Proof.
  assert (J : forall q, jp_new E fields = Some q -> forall l, (src = SrcResp -> no_stream E l) -> bp_ok E src l (BJson q)).
  { intros q Hq l Hns. unfold jp_new in Hq. destruct (o_jnew E fields); [|discriminate]. injection Hq as <-. split; [exists [], []|split; [constructor|split; [discriminate|exact Hns]]]. cbn. split; [constructor|auto]. }
  unfold create_parser. destruct src.
  - destruct (jp_new E fields) as [q|] eqn:Hq; [|discriminate]. intros [= <- <-] _. split; [apply ext_refl|now apply J].
  - destruct (read_headers E p_resp_headers c) as [r c2] eqn:Hr. pose proof (headers_read _ _ _ _ Hr) as Hh. apply read_headers_ext in Hr. cbv zeta.
    destruct r as [|h|]; [discriminate| |].
    + destruct (is_sse_type h) eqn:Hs.
      * intros [= <- <-] Hd. specialize (Hh Hd). split; [exact Hr|]. split; [split; [reflexivity|]; exists [], (c_log c2), h; now rewrite <- sse_type|]. split; [|split; [constructor|discriminate]]. exists [], []. split; [constructor|]. split; [constructor|]. split; reflexivity.
      * destruct (jp_new E fields) as [q|] eqn:Hq; [|discriminate]. intros [= <- <-] Hd. specialize (Hh Hd). split; [exact Hr|apply (J _ eq_refl)]. intros _. exists [], (c_log c2). split; [reflexivity|].
        left. exists h. split; [exact Hh|]. rewrite <- sse_type. congruence.
    + destruct (jp_new E fields) as [q|] eqn:Hq; [|discriminate]. intros [= <- <-] Hd. specialize (Hh Hd). split; [exact Hr|apply (J _ eq_refl)]. intros _. exists [], (c_log c2). split; [reflexivity|]. now right.
Qed.
Lemma st_feed_ok E l b s : (0 < fst (announced SrcResp l))%N -> read E SrcResp l 0 (fst (announced SrcResp l)) = HOk (Some b) -> st_ok E l s -> st_ok E l (st_feed b s).
Proof.
  intros Hlt Hr. destruct s as [p lt|buf]; cbn [st_ok st_feed].
  - intros (H0 & bs & evs & H1 & H2 & H3). destruct (utf8_valid b) eqn:Hb.
    + destruct (sse_parse b p) as [es p'|p'|] eqn:Hp; [|destruct (parse_valid b p Hb) as (? & ? & ?); congruence|destruct (parse_valid b p Hb) as (? & ? & ?); congruence].
      split; [exact H0|]. exists (bs ++ [b]), (evs ++ es). split; [econstructor; eauto; now rewrite N.sub_0_r|]. split; [|now apply latest_more].
      rewrite filter_app. cbn [filter]. rewrite Hb, concat_app. cbn [concat]. rewrite app_nil_r. eapply sse_more; eauto. apply valid_concat. apply Forall_forall. intros x Hx. now apply filter_In in Hx.
    + rewrite (parse_invalid _ _ Hb). split; [exact H0|]. exists (bs ++ [b]), evs. split; [econstructor; eauto; now rewrite N.sub_0_r|]. rewrite filter_app. cbn [filter]. rewrite Hb, app_nil_r. auto.
  - intros (H0 & bs & H1 & ->). split; [exact H0|]. exists (bs ++ [b]). split; [econstructor; eauto; now rewrite N.sub_0_r|]. rewrite concat_app. cbn. now rewrite app_nil_r.
Qed.
Lemma st_populate_ok E l s : ended SrcResp l -> st_ok E l s -> forall fs b, (forall f w, tget f (b_vals b) = Some w -> body_says E SrcResp l f w) ->
  b_size (st_populate E fs s b) = b_size b /\ b_eos (st_populate E fs s b) = b_eos b /\ forall f w, tget f (b_vals (st_populate E fs s b)) = Some w -> body_says E SrcResp l f w.
Proof.
  intros He Hs. unfold st_populate. induction fs as [|g fs IH]; intros b Hb; cbn [fold_left]; [auto|].
  destruct (st_extract E g s) as [y|] eqn:Hy; [|now apply IH]. destruct (st_value y) as [v|] eqn:Hv; [|now apply IH].
  apply (IH (set_value g v b)). intros f w. cbn [set_value b_vals]. destruct (text_eq_dec f g) as [->|Hn];
    [rewrite (aget_aset_same text_eqb text_eqb_eq)|rewrite (aget_aset_other text_eqb text_eqb_eq) by exact Hn; apply Hb].
  intros [= <-]. apply says_now. revert Hy. unfold st_extract. destruct s as [p lt|buf]; cbn [st_ok] in Hs.
  - destruct Hs as (H0 & bs & evs & H1 & H2 & H3). destruct (snd lt) as [u|] eqn:Hu; [|discriminate]. destruct (o_json E (e_data u)) as [j|] eqn:Hj; [|discriminate]. intros Hy.
    eapply ba_usage_event; eauto. eapply latest_prev; eauto.
  - destruct Hs as (H0 & bs & H1 & ->). destruct (utf8_valid (concat bs)) eqn:Hu; [|discriminate]. destruct (o_json E (concat bs)) as [j|] eqn:Hj; [|discriminate]. intros Hy. eapply ba_usage; eauto.
Qed.

(** * Tasks *)
Definition bs_ok (E : env) (l : log) (bs : bstate) : Prop := match bs with BSActive src p => bp_ok E src l p | _ => True end.
(** expressions that ask for no body field *)
Definition bodiless (p x : expr) : Prop := ex_req p ++ ex_req x = [] /\ ex_resp p ++ ex_resp x = [].
Fixpoint fed_ok (E : env) (l : log) (t : task) : Prop :=
  match t with
  | TTracing t | TFailureMode t _ => fed_ok E l t
  | TDynamic _ _ _ _ rs _ _ _ | TPending _ _ _ rs _ => (fix go ts := match ts with [] => True | r :: ts' => fed_ok E l r /\ go ts' end) rs
  | TStore _ p x _ _ _ bs => bs_ok E l bs /\ (bodiless p x -> bs = BSNone)
  | TToken (Some s) _ => st_ok E l s
  | _ => True
  end.
Lemma fed_go E l ts : (fix go ts := match ts with [] => True | r :: ts' => fed_ok E l r /\ go ts' end) ts <-> Forall (fed_ok E l) ts.
Proof. induction ts as [|a ts IH]; [split; [constructor|easy]|]. rewrite IH. split; [intros [H1 H2]; now constructor|]. inversion 1; auto. Qed.
Lemma bs_ok_app E evs l bs : bs_ok E l bs -> bs_ok E (evs ++ l) bs.
Proof. destruct bs; auto. apply bp_ok_app. Qed.
Lemma fed_core E l t : fed_ok E l (core t) <-> fed_ok E l t.
Proof. induction t; simpl; tauto. Qed.
Section TaskInd.
  Variable P : task -> Prop.
  Hypothesis HD : forall id s var msg rs pred deps g, Forall P rs -> P (TDynamic id s var msg rs pred deps g).
  Hypothesis HP : forall id s var rs g, Forall P rs -> P (TPending id s var rs g).
  Hypothesis HT : forall t, P t -> P (TTracing t).
  Hypothesis HF : forall t b, P t -> P (TFailureMode t b).
  Hypothesis HO : forall t, match t with TDynamic _ _ _ _ _ _ _ _ | TPending _ _ _ _ _ | TTracing _ | TFailureMode _ _ => False | _ => True end -> P t.
  Fixpoint task_ind' (t : task) : P t :=
    let go := fix go l : Forall P l := match l with [] => Forall_nil P | x :: l' => Forall_cons x (task_ind' x) (go l') end in
    match t as t return P t with
    | TDynamic id s var msg rs pred deps g => HD id s var msg rs pred deps g (go rs)
    | TPending id s var rs g => HP id s var rs g (go rs)
    | TTracing t => HT t (task_ind' t)
    | TFailureMode t b => HF t b (task_ind' t)
    | t' => HO t' I
    end.
End TaskInd.
Lemma fed_app E evs l t : fed_ok E l t -> fed_ok E (evs ++ l) t.
Proof.
  induction t as [id s var msg rs pred deps g IH|id s var rs g IH|t IH|t b IH|t Ht] using task_ind'; auto.
  - cbn [fed_ok]. rewrite !fed_go, !Forall_forall. rewrite Forall_forall in IH. auto.
  - cbn [fed_ok]. rewrite !fed_go, !Forall_forall. rewrite Forall_forall in IH. auto.
  - destruct t as [| | | | | | | |id p x path ex tm bs|[s|] fs|]; try destruct Ht; try (intros _; exact Logic.I); [intros [H1 H2]; split; [now apply bs_ok_app|exact H2]|apply st_ok_app].
Qed.
Definition fed_out (E : env) (l : log) (o : outcome) : Prop :=
  match o with ODeferred _ t' => fed_ok E l t' | ORequeued ts => Forall (fed_ok E l) ts | OTerminate f => fed_ok E l f | _ => True end.
Lemma fed_out_app E evs l o : fed_out E l o -> fed_out E (evs ++ l) o.
Proof. destruct o; cbn; auto; [apply fed_app| |apply fed_app]. rewrite !Forall_forall. intros H t Ht. now apply fed_app, H. Qed.
Definition unheard (c c' : ctx) : Prop := c_reqb c' = c_reqb c /\ c_respb c' = c_respb c.
Lemma ext_unheard c c' : ext c c' -> unheard c c'.
Proof. intros (x & -> & _). now split. Qed.
Lemma xrid_unheard c c' : xrid c c' -> unheard c c'.
Proof. intros (x & r & -> & _). now split. Qed.
Lemma unheard_trans a b c : unheard a b -> unheard b c -> unheard a c.
Proof. intros [A1 A2] [B1 B2]. split; congruence. Qed.
Lemma bodies_ext E c c' : ext c c' -> bodies0 E c -> bodies0 E c'.
Proof. intros Hx. destruct (ext_unheard _ _ Hx). apply (bodies_app E []); auto. exact (ext_log _ _ Hx). Qed.
Lemma quiet_untold t e : quiet t e -> untold e.
Proof. now destruct e. Qed.
(** what one application leaves *)
Lemma apply_untold E t c o c' : apply E t c = (o, c') -> exists evs, c_log c' = evs ++ c_log c /\ Forall untold evs.
Proof.
  intros H. apply apply_summary in H as [S1 _ _ _ _]. destruct o; try (destruct S1 as (evs & G & Q & _); exists evs; split; [exact G|]; revert Q; apply Forall_impl; apply quiet_untold).
  destruct S1 as (cl & G & _). exists [EvDispatch (t_id t) cl (Some tok)]. split; [exact G|now repeat constructor].
Qed.

Lemma dispatch_unheard E mk u s m msg to c r c' : dispatch E mk u s m msg to c = (r, c') -> unheard c c'.
Proof. intros H. apply dispatch_spec in H as (cl & c4 & Hx & -> & _). apply xrid_unheard in Hx. exact Hx. Qed.
Lemma set_headers_unheard E m h c r c' : set_headers E m h c = (r, c') -> unheard c c'.
Proof. unfold set_headers. destruct (h_setmap E _ m h); destruct m; intros [= <- <-]; now split. Qed.
Lemma set_attribute_unheard E p v c r c' : set_attribute E p v c = (r, c') -> unheard c c'.
Proof. unfold set_attribute. cbv zeta. destruct (h_setprop E _ _ v); intros [= <- <-]; now split. Qed.
(** the tasks that do not look at bodies *)
Lemma apply_unheard E t : forall c o c', apply E t c = (o, c') ->
  match core t with TStore _ _ _ _ _ _ _ | TToken _ _ => True | _ => unheard c c' end.
Proof.
  induction t as [id s var msg rs pred deps g|id s var rs g|id g|t IH b|t IH|id p tm|id p hx m tm|id p d tm|id p x path ex tm bs|st fs|]; intros c o c'; cbn [core apply]; try exact (fun _ => Logic.I).
  - unfold apply_dynamic. destruct (test_in E pred _ c) as [[r vs] c1] eqn:H1. apply test_in_ext, ext_unheard in H1.
    destruct r as [|[]|]; try (intros [= <- <-]; exact H1).
    destruct (eval_in E msg _ c1) as [[r2 vs2] c2] eqn:H2. apply eval_in_ext, ext_unheard in H2. pose proof (unheard_trans _ _ _ H1 H2) as H3.
    destruct r2 as [|v|]; try (intros [= <- <-]; exact H3).
    destruct (o_encode E _ s v); [|intros [= <- <-]; exact H3].
    destruct (dispatch E _ _ _ _ _ _ c2) as [r4 c4] eqn:H4. apply dispatch_unheard in H4. pose proof (unheard_trans _ _ _ H3 H4) as H5.
    destruct r4; intros [= <- <-]; destruct g; exact H5.
  - unfold apply_pending, process_response, take_grpc. destruct (c_grpc c) as [[st sz]|]; cbv beta iota zeta.
    + destruct (negb _); [intros [= <- <-]; destruct g; now split|]. destruct rs as [|r0 rs]; [intros [= <- <-]; destruct g; now split|].
      destruct (h_grpcresp E _ sz) as [y|]; [|intros [= <- <-]; destruct g; now split]. destruct (o_decode E _ s y); intros [= <- <-]; destruct g; now split.
    + intros [= <- <-]; destruct g; now split.
  - unfold apply_noop. intros [= <- <-]. destruct g; now split.
  - destruct (apply E t c) as [o1 c1] eqn:Ha. specialize (IH _ _ _ Ha).
    assert (KK : forall c2, unheard c1 c2 -> match core t with TStore _ _ _ _ _ _ _ | TToken _ _ => True | _ => unheard c c2 end).
    { intros c2 H. destruct (core t); try exact Logic.I; eapply unheard_trans; eauto. }
    destruct o1; intros [= <- <-]; apply KK; now split.
  - destruct (apply E t c) as [o1 c1] eqn:Ha. specialize (IH _ _ _ Ha). destruct o1; intros [= <- <-]; exact IH.
  - unfold apply_fail. destruct (test_in E p _ c) as [[r vs] c1] eqn:H1. apply test_in_ext, ext_unheard in H1.
    destruct r as [|[]|]; try (intros [= <- <-]; exact H1). destruct tm; intros [= <- <-]; exact H1.
  - unfold apply_headers. destruct (test_in E p _ c) as [[r vs] c1] eqn:H1. apply test_in_ext, ext_unheard in H1.
    destruct r as [|[]|]; try (intros [= <- <-]; exact H1).
    destruct (eval_in E hx vs c1) as [[r2 vs2] c2] eqn:H2. apply eval_in_ext, ext_unheard in H2. pose proof (unheard_trans _ _ _ H1 H2) as H3.
    destruct r2 as [|v|]; try (intros [= <- <-]; exact H3).
    destruct (header_pairs v); [intros [= <- <-]; exact H3|]. destruct (read_headers E _ c2) as [r3 c3] eqn:H4. apply read_headers_ext, ext_unheard in H4.
    pose proof (unheard_trans _ _ _ H3 H4) as H5. destruct r3 as [|h|]; try (intros [= <- <-]; exact H5).
    match goal with |- context [set_headers E m ?x c3] => destruct (set_headers E m x c3) as [r6 c6] eqn:H6 end. apply set_headers_unheard in H6. pose proof (unheard_trans _ _ _ H5 H6) as H7.
    destruct r6; intros [= <- <-]; exact H7.
  - unfold apply_reply. destruct (test_in E p _ c) as [[r vs] c1] eqn:H1. apply test_in_ext, ext_unheard in H1.
    destruct r as [|[]|]; try (intros [= <- <-]; exact H1).
    destruct (eval_in E d vs c1) as [[r2 vs2] c2] eqn:H2. apply eval_in_ext, ext_unheard in H2. pose proof (unheard_trans _ _ _ H1 H2) as H3.
    destruct r2 as [|v|]; try (intros [= <- <-]; exact H3). destruct v; try (intros [= <- <-]; exact H3).
    destruct (tracker E c2) as [tr c4] eqn:H4. apply tracker_xrid, xrid_unheard in H4. pose proof (unheard_trans _ _ _ H3 H4) as H5.
    unfold send_reply. intros [= <- <-]. exact H5.
  - intros [= <- <-]. now split.
Qed.
Lemma store_value_fed E self id p x path ex tm c o c' : fed_ok E (c_log c) self -> bodies0 E c -> store_value E self id p x path ex tm c = (o, c') ->
  bodies0 E c' /\ fed_out E (c_log c') o.
Proof.
  intros Hs HB. unfold store_value. destruct (test_in E p _ c) as [[r vs] c1] eqn:H1. apply test_in_ext in H1.
  assert (KK : forall d o', ext c d -> (o' = ODone \/ o' = OFailed \/ o' = ORequeued [self] \/ o' = OTerminate default_reply) -> bodies0 E d /\ fed_out E (c_log d) o').
  { intros d o' Hx Ho. split; [now apply (bodies_ext E c)|].
    rewrite (ext_log _ _ Hx). destruct Ho as [->|[->|[->| ->]]]; cbn; auto. }
  destruct r as [|[]|]; try (intros [= <- <-]; apply KK; [exact H1|tauto]).
  destruct (eval_in E x vs c1) as [[r2 vs2] c2] eqn:H2. apply eval_in_ext in H2. pose proof (ext_trans _ _ _ H1 H2) as H3.
  destruct r2 as [|v|]; try (intros [= <- <-]; apply KK; [exact H3|tauto]).
  assert (KL : forall d o' evs, c_log d = evs ++ c_log c -> Forall untold evs -> unheard c d -> (o' = ODone \/ o' = OFailed \/ o' = OTerminate default_reply) -> bodies0 E d /\ fed_out E (c_log d) o').
  { intros d o' evs Hl He [U1 U2] Ho. split; [now apply (bodies_app E evs c)|]. destruct Ho as [->|[->| ->]]; cbn; auto. }
  assert (Ho : (if tm then OTerminate default_reply else ODone) = ODone \/ (if tm then OTerminate default_reply else ODone) = OFailed \/ (if tm then OTerminate default_reply else ODone) = OTerminate default_reply) by (destruct tm; eauto).
  destruct ex.
  - destruct (value_bytes v) as [bytes|]; [|intros [= <- <-]; apply KK; [exact H3|tauto]].
    destruct (set_attribute E _ bytes c2) as [r4 c4] eqn:H6. pose proof (set_attribute_unheard _ _ _ _ _ _ H6) as H7. apply set_attribute_spec in H6 as (ok & y & -> & _).
    pose proof (unheard_trans _ _ _ (ext_unheard _ _ H3) H7) as H8. pose proof (ext_log _ _ H3) as Hl.
    destruct r4; intros [= <- <-]; (apply (KL _ _ [EvSetProp (kuadrant_host_path (path_parse path)) bytes ok]); [cbn; now rewrite Hl|now repeat constructor|exact H8|first [exact Ho|tauto]]).
  - intros [= <- <-]. apply (KL _ _ []); [cbn; exact (ext_log _ _ H3)|constructor|exact (ext_unheard _ _ H3)|exact Ho].
Qed.
Lemma fed_apply E t : forall c o c', heads E c -> bodies0 E c -> fed_ok E (c_log c) t -> apply E t c = (o, c') -> bodies0 E c' /\ fed_out E (c_log c') o.
Proof.
  induction t as [id s var msg rs pred deps g|id s var rs g|id g|t IH b|t IH|id p tm|id p hx m tm|id p d tm|id p x path ex tm bs|st fs|]; intros c o c' HH HB Hf Ha.
  all: try (destruct (apply_untold _ _ _ _ _ Ha) as (evs & Hl & He); pose proof (apply_unheard _ _ _ _ _ Ha) as Hu; cbn [core] in Hu;
    match type of Hu with True => fail 1 | unheard _ _ => split; [destruct Hu; now apply (bodies_app E evs c)|]; rewrite Hl; apply fed_out_app; clear Hl Hu He; revert Ha; cbn [apply] | _ => idtac end).
  - unfold apply_dynamic. destruct (test_in E pred _ c) as [[r vs] c1].
    destruct r as [|[]|]; try (intros [= <- <-]; (destruct (body_over pred c1) || idtac); repeat constructor; exact Hf).
    destruct (eval_in E msg _ c1) as [[[|v|] vs2] c2]; try (intros [= <- <-]; (destruct (body_over msg c2) || idtac); repeat constructor; exact Hf).
    destruct (o_encode E _ s v); [|intros [= <- <-]; exact Logic.I].
    destruct (dispatch E _ _ _ _ _ _ c2) as [[tok|] c3]; intros [= <- <-]; [exact Hf|exact Logic.I].
  - cbn [fed_ok] in Hf. apply fed_go in Hf. unfold apply_pending, process_response. destruct (take_grpc c) as [[[st sz]|] c1]; [|intros [= <- <-]; exact Logic.I].
    destruct (negb (N.eqb st 0)); [intros [= <- <-]; exact Logic.I|].
    destruct rs as [|r0 rs]; [intros [= <- <-]; exact Logic.I|].
    destruct (h_grpcresp E _ sz) as [bs|]; [|intros [= <- <-]; exact Logic.I].
    destruct (o_decode E _ s bs); intros [= <- <-]; [exact Hf|exact Logic.I].
  - unfold apply_noop. intros [= <- <-]. exact Logic.I.
  - clear Hu He Hl evs. revert Ha. cbn [apply]. destruct (apply E t c) as [o1 c1] eqn:Ha. destruct (IH _ _ _ HH HB Hf Ha) as [H1 H2].
    destruct o1; intros [= <- <-]; try (split; [exact H1|exact H2]).
    split; [|destruct b; exact Logic.I]. apply (bodies_app E [EvMetric MErrors] c1); auto; now repeat constructor.
  - clear Hu He Hl evs. revert Ha. cbn [apply]. destruct (apply E t c) as [o1 c1] eqn:Ha. destruct (IH _ _ _ HH HB Hf Ha) as [H1 H2].
    destruct o1; intros [= <- <-]; (split; [exact H1|]); try exact H2; try exact Logic.I. cbn [fed_out] in *. rewrite Forall_map. exact H2.
  - unfold apply_fail. destruct (test_in E p _ c) as [[r vs] c1]. 
    repeat match goal with |- context [match ?x with _ => _ end] => destruct x end; intros [= <- <-]; repeat constructor.
  - unfold apply_headers. destruct (test_in E p _ c) as [[r vs] c1]. destruct r as [|[]|]; try (intros [= <- <-]; repeat constructor).
    destruct (eval_in E hx vs c1) as [[r2 vs2] c2].
    repeat match goal with |- context [match ?x with _ => _ end] => destruct x end; intros [= <- <-]; repeat constructor.
  - unfold apply_reply. destruct (test_in E p _ c) as [[r vs] c1]. destruct r as [|[]|]; try (intros [= <- <-]; repeat constructor).
    destruct (eval_in E d vs c1) as [[r2 vs2] c2]. destruct r2 as [|v|]; try (intros [= <- <-]; repeat constructor).
    destruct v; try (intros [= <- <-]; repeat constructor). destruct (tracker E c2) as [tr c4]. cbv zeta. destruct (send_reply E _ _ _ _) as [ok c5].
    destruct ok; intros [= <- <-]; repeat constructor. destruct tm; repeat constructor.
  - cbn [fed_ok] in Hf. revert Ha. cbn [apply]. unfold apply_store.
    assert (KK : forall src q c1 o c', ~ bodiless p x -> bodies0 E c1 -> bp_ok E src (c_log c1) q ->
      match feed_parser E src q c1 with
      | RPending => (ORequeued [TStore id p x path ex tm (BSActive src q)], c1)
      | RErr => (OFailed, c1)
      | RAvail (p', c') => store_value E (TStore id p x path ex tm (BSActive src p')) id p x path ex tm c'
      end = (o, c') -> bodies0 E c' /\ fed_out E (c_log c') o).
    { intros src q c1 o0 c0 Hne H1 H2. destruct (feed_parser E src q c1) as [|[q' c2]|] eqn:Hp.
      - intros [= <- <-]. split; [exact H1|]. repeat constructor; [exact H2|intros Hb; now destruct Hne].
      - destruct (feed_parser_ok _ _ _ _ _ _ H1 H2 Hp) as (F1 & F2 & F3). apply store_value_fed; [split; [cbn; now rewrite F3|intros Hb; now destruct Hne]|exact F2].
      - intros [= <- <-]. split; [exact H1|exact Logic.I]. }
    destruct Hf as [Hf Hnb]. destruct bs as [|src fields|src q]; [apply store_value_fed; [cbn [fed_ok]; split; [exact Logic.I|reflexivity]|exact HB]| |apply KK; [intros Hb; specialize (Hnb Hb); discriminate|exact HB|exact Hf]].
    assert (Hne : ~ bodiless p x) by (intros Hb; specialize (Hnb Hb); discriminate).
    destruct (create_parser E src fields c) as [r c1] eqn:Hc.
    assert (Hx : ext c c1).
    { revert Hc. unfold create_parser. destruct src; [intros [= _ <-]; apply ext_refl|]. destruct (read_headers E p_resp_headers c) as [r1 c2] eqn:Hr. apply read_headers_ext in Hr. cbv zeta. destruct r1; intros [= _ <-]; exact Hr. }
    assert (HB1 : bodies0 E c1) by (now apply (bodies_ext E c)).
    destruct r as [|q|]; [intros [= <- <-]; split; [exact HB1|repeat constructor; intros Hb; now destruct Hne]| |intros [= <- <-]; split; [exact HB1|exact Logic.I]].
    assert (HH1 : heads E c1).
    { revert Hc. unfold create_parser. destruct src; [intros [= _ <-]; exact HH|]. destruct (read_headers E p_resp_headers c) as [r1 c2] eqn:Hr. apply read_headers_extf in Hr. cbv zeta.
      destruct r1; intros [= _ <-]; exact (k_extf _ heads_steady _ _ _ Hr HH). }
    apply create_parser_ok in Hc as [_ Hc]; [|exact HH1]. now apply KK.
  - revert Ha. cbn [apply]. unfold apply_token. cbv zeta.
    assert (KK : forall s c1 o c', bodies0 E c1 -> st_ok E (c_log c1) s -> match (if (0 <? b_size (c_respb c1))%N then
        match h_respbody E (c_log c1) 0 (b_size (c_respb c1)) with
        | HOk (Some bytes) => RAvail (st_feed bytes s) | HOk None => RAvail s | HNotAvail => RPending | HErr => RErr end else RAvail s) with
      | RPending => (ORequeued [TToken (Some s) fs], c1)
      | RErr => (OFailed, c1)
      | RAvail s' => if b_eos (c_respb c1) then (ODone, with_respb c1 (st_populate E fs s' (c_respb c1))) else (ORequeued [TToken (Some s') fs], c1)
      end = (o, c') -> bodies0 E c' /\ fed_out E (c_log c') o).
    { intros s c1 o0 c0 H1 H2. pose proof (bo_size _ _ H1 SrcResp) as Hs. cbn [src_body] in Hs.
      match goal with |- match ?y with _ => _ end = _ -> _ => destruct y as [|s'|] eqn:Hy end; try (intros [= <- <-]; split; [exact H1|repeat constructor; exact H2]).
      assert (H3 : st_ok E (c_log c1) s').
      { revert Hy. destruct (N.ltb_spec 0 (b_size (c_respb c1))) as [Hlt|Hge]; [|now intros [= <-]].
        destruct (h_respbody E (c_log c1) 0 (b_size (c_respb c1))) as [[y|]| |] eqn:Hr; try discriminate; intros [= <-]; [|exact H2].
        apply st_feed_ok; [now rewrite Hs|now rewrite Hs|exact H2]. }
      destruct (b_eos (c_respb c1)) eqn:Heos; [|intros [= <- <-]; split; [exact H1|repeat constructor; exact H3]].
      intros [= <- <-]. split; [|exact Logic.I]. 
      destruct (st_populate_ok E (c_log c1) s') with (fs := fs) (b := c_respb c1) as (P1 & P2 & P3); auto; [unfold ended; now rewrite Hs|apply (bo_vals _ _ H1 SrcResp)|].
      apply (bodies_set E SrcResp _ c1 H1 P1 P2 P3). }
    destruct st as [s|]; [now apply KK|]. destruct (read_headers E p_resp_headers c) as [r c1] eqn:Hr.
    pose proof (headers_read _ _ _ _ Hr (k_extf _ heads_steady _ _ _ (read_headers_extf _ _ _ _ _ Hr) HH)) as Hh. apply read_headers_ext in Hr.
    assert (HB1 : bodies0 E c1) by (now apply (bodies_ext E c)).
    destruct r as [|h|]; [intros [= <- <-]; split; [exact HB1|repeat constructor]| |intros [= <- <-]; split; [exact HB1|exact Logic.I]].
    apply KK; [exact HB1|]. unfold select_strategy. destruct (is_sse_type h) eqn:Hst.
    + split; [exists [], (c_log c1), h; now rewrite <- sse_type|]. exists [], []. repeat split; constructor.
    + split; [exists [], (c_log c1); split; [reflexivity|]; left; exists h; split; [exact Hh|]; rewrite <- sse_type; congruence|]. exists []. repeat split; constructor.
  - intros [= <- <-]. exact Logic.I.
Qed.

(** ** In every state of a request *)
(** what is known of the bodies and of the response headers *)
Definition bodies_ok (E : env) (c : ctx) : Prop := heads E c /\ bodies0 E c.
Definition fedI (E : env) (ts : list task) (p : pipe) : Prop := bodies_ok E (p_ctx p) /\ Forall (fed_ok E (c_log (p_ctx p))) (items ts p).
Lemma fed_items E l ts p : Forall (fed_ok E l) (items ts p) <-> Forall (fed_ok E l) ts /\ Forall (fed_ok E l) (p_queue p) /\ Forall (fed_ok E l) (dts p).
Proof. unfold items. rewrite !Forall_app. tauto. Qed.
Lemma fed_all_app E evs l ts : Forall (fed_ok E l) ts -> Forall (fed_ok E (evs ++ l)) ts.
Proof. apply Forall_impl. intros t. apply fed_app. Qed.
Lemma step_fed E t c o c' : step E t c = (o, c') -> heads E c -> bodies0 E c -> fed_ok E (c_log c) t ->
  bodies0 E c' /\ fed_out E (c_log c') o /\ exists evs, c_log c' = evs ++ c_log c /\ Forall untold evs.
Proof.
  unfold step. destruct (apply E t (emit (EvEval (t_id t)) c)) as [o1 c1] eqn:Ha. intros H HH HB Hf.
  assert (HH0 : heads E (emit (EvEval (t_id t)) c)) by (apply (k_emit _ heads_steady); [exact Logic.I|exact HH]).
  assert (HB0 : bodies0 E (emit (EvEval (t_id t)) c)) by (apply (bodies_app E [EvEval (t_id t)] c); auto; now repeat constructor).
  destruct (apply_untold _ _ _ _ _ Ha) as (evs & Hl & He). apply fed_apply in Ha as [H1 H2]; [|exact HH0|exact HB0|now apply (fed_app E [_])]. cbn [emit with_log c_log] in Hl.
  assert (KK : exists x, c_log c' = x ++ c_log c1 /\ Forall untold x /\ o = o1 /\ unheard c1 c').
  { destruct o1; injection H as <- <-; first [now exists []|eexists [_]; split; [reflexivity|]; split; [now repeat constructor|now split]]. }
  destruct KK as (x & K1 & K2 & -> & K3 & K4). split; [now apply (bodies_app E x c1)|]. rewrite K1. split; [now apply fed_out_app|].
  exists (x ++ evs ++ [EvEval (t_id t)]). split; [rewrite Hl, <- !app_assoc; reflexivity|]. rewrite !Forall_app. repeat split; auto. now repeat constructor.
Qed.
Lemma terminal_fed E f c : heads E c -> bodies0 E c -> fed_ok E (c_log c) f -> bodies0 E (run_terminal E f c) /\ exists evs, c_log (run_terminal E f c) = evs ++ c_log c.
Proof.
  intros HH HB Hf. unfold run_terminal. destruct (apply E f c) as [o c1] eqn:Ha. destruct (apply_untold _ _ _ _ _ Ha) as (evs & Hl & _). apply fed_apply in Ha as [H1 _]; auto.
  split; [|now exists evs]. now apply (bodies_app E [] c1).
Qed.
Lemma td_fed E a p : bodies0 E (p_ctx p) -> bodies0 E (p_ctx (td_step E p a)).
Proof.
  intros HB. destruct (td_sum E a p) as (evs & tok & T1 & T2 & _).
  assert (Hu : unheard (p_ctx p) (p_ctx (td_step E p a))).
  { unfold td_step. destruct (td_exec E a (emit EvTeardown (p_ctx p))) as [r c] eqn:Htd.
    assert (Hc : unheard (p_ctx p) c).
    { unfold td_exec in Htd. destruct (o_spans E _); [|injection Htd as <- <-; now split]. now apply dispatch_unheard in Htd. }
    destruct r as [k|]; [|exact Hc]. unfold def_insert. cbn. destruct (nget k (p_def p)); exact Hc. }
  destruct Hu as [U1 U2]. apply (bodies_app E (evs ++ [EvTeardown]) (p_ctx p)); auto.
  - apply Forall_app. split; [|now repeat constructor]. destruct T2 as [[-> _]|(cl & -> & _)]; now repeat constructor.
  - now rewrite <- app_assoc.
Qed.
Ltac quad := refine (conj _ (conj _ (conj _ _))).
Lemma fed_estep E ts p ts' p' : estep E ts p ts' p' -> fedI E ts p -> fedI E ts' p'.
Proof.
  intros Hs [[HH HB] HF]. pose proof (k_estep _ heads_steady _ _ _ _ _ Hs HH) as HH'. apply fed_items in HF as (F1 & F2 & F3).
  cut (bodies0 E (p_ctx p') /\ Forall (fed_ok E (c_log (p_ctx p'))) (items ts' p')); [intros [H1 H2]; split; [now split|exact H2]|]. rewrite fed_items. clear HH'.
  destruct Hs as [p Hset|t ts p Hb|t ts p o c ts' p' Hb Hst Hn|tok st sz p Hset Hn|tok st sz t p o c Hset Hn Hst|p Hq Ht|a rest p Hq Hn Ht].
  - quad; auto; constructor.
  - inversion F1; subst. quad; auto. cbn. apply Forall_app. auto.
  - inversion F1; subst. pose proof (k_step _ heads_steady _ _ _ _ _ Hst HH) as HHc. destruct (step_fed _ _ _ _ _ Hst HH HB) as (S1 & S2 & evs & S3 & S4); [assumption|].
    match goal with H : Forall _ ts |- _ => apply (fed_all_app E evs) in H end. apply (fed_all_app E evs) in F2. apply (fed_all_app E evs) in F3. rewrite <- S3 in *.
    unfold run_next in Hn. destruct o; injection Hn as <- <-; cbn [p_with_ctx p_with_done p_with_queue p_ctx p_queue].
    + quad; auto.
    + destruct (def_insert_facts tok t0 (p_with_ctx p c)) as (D1 & _ & _ & _ & _ & D6). rewrite D1. split.
      * unfold def_insert. cbn. destruct (nget tok (p_def p)); [|exact S1]. now apply (bodies_app E [] c).
      * repeat split; auto. unfold dts. rewrite D6. now apply Forall_nset.
    + quad; auto. apply Forall_app. auto.
    + quad; auto.
    + destruct (terminal_fed E t0 c HHc S1 S2) as [T1 (x & T2)]. change (c_log (drop_tasks ?l ?y)) with (c_log y). split; [now apply (bodies_app E [] (run_terminal E t0 c))|].
      rewrite T2. repeat split; try constructor. now apply fed_all_app.
  - split; [apply (bodies_app E [EvGrpcResp tok st sz] (p_ctx p)); auto; now repeat constructor|]. repeat split; now apply (fed_all_app E [_]).
  - set (c0 := emit _ (set_grpc _ _ _)) in Hst.
    assert (L0 : c_log c0 = [EvHandle tok (t_id t); EvGrpcResp tok st sz] ++ c_log (p_ctx p)) by (unfold c0, set_grpc; cbn; destruct (c_grpc (p_ctx p)); reflexivity).
    assert (U0 : unheard (p_ctx p) c0) by (unfold c0, set_grpc; cbn; destruct (c_grpc (p_ctx p)); now split).
    assert (B0 : bodies0 E c0) by (destruct U0; eapply bodies_app; [|exact L0| | |exact HB]; auto; now repeat constructor).
    assert (HH0 : heads E c0).
    { unfold c0. apply (k_emit _ heads_steady); [exact Logic.I|]. unfold set_grpc. destruct (c_grpc _); (apply (k_same _ heads_steady E (emit (EvGrpcResp tok st sz) (p_ctx p))); [reflexivity|reflexivity|]); (apply (k_emit _ heads_steady); [exact Logic.I|exact HH]). }
    pose proof (k_step _ heads_steady _ _ _ _ _ Hst HH0) as HHc.
    assert (Ft : fed_ok E (c_log c0) t) by (rewrite L0; apply fed_app; eapply Forall_nget; [exact F3|exact Hn]).
    destruct (step_fed _ _ _ _ _ Hst HH0 B0 Ft) as (S1 & S2 & evs & S3 & S4). rewrite L0, app_assoc in S3.
    apply (fed_all_app E (evs ++ [EvHandle tok (t_id t); EvGrpcResp tok st sz])) in F2, F3. rewrite <- S3 in *.
    assert (F3' : Forall (fed_ok E (c_log c)) (map snd (ndel tok (p_def p)))) by now apply Forall_ndel.
    unfold handle_next. destruct o; cbn [p_with_ctx p_with_done p_with_queue p_ctx p_queue p_def p_done p_td p_term].
    + quad; auto.
    + match goal with |- context [def_insert ?k ?x ?q] => destruct (def_insert_facts k x q) as (D1 & _ & _ & _ & _ & D6) end. rewrite D1. cbn [p_ctx]. split.
      * unfold def_insert. cbn [p_ctx p_def]. match goal with |- context [nget ?a ?b] => destruct (nget a b) end; [|exact S1]. now apply (bodies_app E [] c).
      * repeat split; auto. unfold dts. rewrite D6. now apply Forall_nset.
    + split; [apply (bodies_app E [EvDone (t_id t)] c); auto; now repeat constructor|]. cbn [emit with_log c_log]. repeat split; auto; apply (fed_all_app E [_]); auto. apply Forall_app; auto.
    + quad; auto.
    + destruct (terminal_fed E t0 c HHc S1 S2) as [T1 (x & T2)]. change (c_log (drop_tasks ?l ?y)) with (c_log y). split; [now apply (bodies_app E [] (run_terminal E t0 c))|].
      rewrite T2. repeat split; try constructor. now apply fed_all_app.
  - split; [now apply (bodies_app E [] (p_ctx p))|]. repeat split; auto. unfold dts. cbn [replace_deferred p_def]. rewrite map_map. apply Forall_map, Forall_forall. intros x _. exact Logic.I.
  - split; [now apply td_fed|]. destruct (td_sum E a (p_with_td p rest)) as (evs & tok & T1 & T2 & T3 & T4 & _). rewrite T1, T4.
    change (evs ++ EvTeardown :: ?l) with (evs ++ [EvTeardown] ++ l). rewrite app_assoc. repeat split; try (now apply fed_all_app).
    unfold dts. rewrite T3. apply (fed_all_app E (evs ++ [EvTeardown])) in F3. destruct tok; [|exact F3]. apply Forall_nset; [exact Logic.I|exact F3].
Qed.
Lemma fed_finvb E : finvb E (fedI E) (fun _ => True).
Proof.
  constructor; try (intros; exact Logic.I).
  - intros. eapply fed_estep; eauto.
  - intros p e He [[HH HB] HF]. split; [split; [apply (k_emit _ heads_steady); [now destruct e|exact HH]|apply (bodies_app E [e] (p_ctx p)); auto; constructor; [now destruct e|constructor]]|]. now apply (fed_all_app E [e]).
  - intros src n e p [[HH HB] HF]. set (x := match src with SrcReq => EvReqBody n e | SrcResp => EvRespBody n e end).
    assert (Hl : c_log (p_ctx (p_body src n e p)) = [x] ++ c_log (p_ctx p)) by (destruct src; reflexivity). unfold fedI. rewrite Hl.
    split; [split|unfold items, dts in *; destruct src; apply fed_all_app; exact HF].
    { apply (k_same _ heads_steady E (emit x (p_ctx p))); [exact Hl|now destruct src|]. apply (k_emit _ heads_steady); [now destruct src|exact HH]. }
    destruct HB as [S1 S2]. constructor; intros src'; rewrite Hl.
    + pose proof (S1 src') as H1. destruct src, src'; cbn in *; auto.
    + intros f w Hw. apply says_app. pose proof (S2 src' f w) as H2. destruct src, src'; cbn in *; auto.
Qed.
(** *** at its start *)
Lemma to_core_fed E l a : forall c t c', to_core E a c = Some (t, c') -> fed_ok E l t.
Proof.
  induction a as [id p tm s var m rs d g IH|id p tm o d g Ho] using action_ind'; intros c t c'.
  - rewrite to_core_grpc.
    assert (KK : forall c ts c1, to_cores E rs c = Some (ts, c1) -> Forall (fed_ok E l) ts).
    { clear -IH. induction IH as [|r rs Hr _ IH]; intros c ts c1; simpl; [intros [= <- <-]; constructor|].
      destruct (to_core E r c) as [[t1 c2]|] eqn:H1; [|discriminate].
      destruct (to_cores E rs c2) as [[ts2 c3]|] eqn:H2; [|discriminate]. intros [= <- <-]. constructor; [now apply Hr in H1|eauto]. }
    destruct (to_cores E rs c) as [[ts c1]|] eqn:H1; [|discriminate]. apply KK in H1.
    destruct s as [k sv|o].
    + intros [= <- <-]. cbn [fed_ok]. now apply fed_go.
    + cbv zeta. destruct (request_id E (with_track c1 (Some var))) as [rid c3].
      destruct (parse_expr E (tracker_src var rid)); [|discriminate]. intros [= <- <-]. exact Logic.I.
  - destruct o; simpl; try (intros [= <- <-]; exact Logic.I); [edestruct Ho; reflexivity|].
    intros [= <- <-]. cbn [fed_ok]. split; [|intros [H1 H2]; unfold initial_body; now rewrite H1, H2]. unfold bs_ok. match goal with |- match ?y with _ => _ end => destruct y eqn:Hy end; try exact Logic.I.
    exfalso. revert Hy. unfold initial_body. destruct (_ ++ _); [destruct (_ ++ _)|]; discriminate.
Qed.
Lemma actions_tasks_fed E rd tr l0 l : forall c ts tds c', actions_tasks E rd tr l c = Some (ts, tds, c') -> Forall (fed_ok E l0) ts.
Proof.
  induction l as [|a l IH]; intros c ts tds c'; cbn [actions_tasks]; [intros [= <- <- <-]; constructor|].
  destruct (action_tasks E rd tr a c) as [[[t1 td1] c1]|] eqn:H1; [|discriminate].
  destruct (actions_tasks E rd tr l c1) as [[[t2 td2] c2]|] eqn:H2; [|discriminate]. specialize (IH _ _ _ _ H2).
  intros [= <- <- <-]. apply Forall_app. split; [|exact IH]. clear - H1. revert H1.
  unfold action_tasks. destruct (to_core E a c) as [[tk c3]|] eqn:H.
  - apply (to_core_fed E l0) in H. assert (KK : Forall (fed_ok E l0) [tk]) by (repeat constructor; exact H).
    destruct (a_op a) as [s v m rs|x|x y|x y z|]; try (intros [= <- <- <-]; exact KK).
    destruct s as [k s|[t|]]; try (intros [= <- <- <-]; exact KK).
    intros [= <- <- <-]. apply Forall_app. split; [destruct (collect_body_values rd a); repeat constructor|].
    constructor; [|constructor]. destruct tr; exact H.
  - destruct (a_op a) as [s v m rs|x|x y|x y z|]; try discriminate. destruct s as [k s|[t|]]; discriminate.
Qed.
Lemma fed_start E fa p : build E fa (ctx0 [EvReqHeaders]) = BOk p -> fedI E [] (p_emit (EvMetric MHits) p).
Proof.
  intros Hb. pose proof (build_spec E fa (ctx0 [EvReqHeaders])) as Hsp. rewrite Hb in Hsp. destruct Hsp as (b & c1 & tds & _ & Ht & Hp & Hbl & _).
  destruct Hbl as (Hlog & _ & _ & _ & _ & Hq & Hr & _). cbn in Hlog, Hq, Hr. split; [split|].
  - apply (k_emit _ heads_steady); [exact Logic.I|]. apply (k_start _ heads_steady E fa); [|exact Hb]. split; [|discriminate]. intros m. cbn. intros e [<-|[]] (h & [=]).
  - constructor; intros src; cbn [p_emit p_with_ctx p_ctx emit with_log c_log]; rewrite Hlog.
    + destruct src; cbn; now rewrite ?Hq, ?Hr.
    + intros f w. destruct src; cbn; rewrite ?Hq, ?Hr; discriminate.
  - apply actions_tasks_fed with (l0 := c_log (p_ctx (p_emit (EvMetric MHits) p))) in Ht. apply fed_items. unfold dts. rewrite Hp. cbn [p_emit p_with_ctx p_queue p_def p_ctx].
    repeat split; try constructor. rewrite Hp in Ht. exact Ht.
Qed.
(** the parser of a task *)
Definition store_fed (E : env) (l : log) (t : task) : Prop := match core t with TStore _ _ _ _ _ _ bs => bs_ok E l bs | _ => True end.
Lemma fed_store_fed E l t : fed_ok E l t -> store_fed E l t.
Proof. intros H. apply fed_core in H. unfold store_fed. destruct (core t); auto. apply H. Qed.
Lemma fed_bodiless E l t : fed_ok E l t -> match core t with TStore _ p x _ _ _ bs => bodiless p x -> bs = BSNone | _ => True end.
Proof. intros H. apply fed_core in H. destruct (core t); auto. apply H. Qed.
Lemma store_fed_app E evs l t : store_fed E l t -> store_fed E (evs ++ l) t.
Proof. unfold store_fed. destruct (core t); auto. apply bs_ok_app. Qed.
