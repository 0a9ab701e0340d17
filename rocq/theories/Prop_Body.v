(** C47 - C49, C80: bodies. *)
From Coq Require Import String Ascii List NArith ZArith Bool Lia Arith.
From Verif Require Import Base Value Headers AttrPath Ctx CelProps CelEval Sse Body Tasks Exec Config Legacy Blueprint Factory Filter
  P_Frame P_Utf8 P_Sse Demo P_Run DemoCfg Prop_Sse.
Import ListNotations.
Open Scope list_scope.

(** * Specifications *)
Definition slice (s : text) (start len : N) : text := firstn (N.to_nat len) (skipn (N.to_nat start) s).
(** the buffer of the host is, at this moment, a prefix of the body [B] *)
Definition shows (E : env) (src : source) (B : text) (c : ctx) : Prop :=
  (b_size (src_body src c) <= N.of_nat (length B))%N /\
  forall start len x, (start + len <= b_size (src_body src c))%N -> src_read E src start len c = HOk (Some x) -> x = slice B start len.
(** evaluations of an action, each of which left it waiting, while the buffer grew to [n] *)
Inductive reevaluated (E : env) (src : source) (B : text) (t : task) : N -> task -> Prop :=
| re_start : reevaluated E src B t 0 t
| re_again n t1 c t2 c' : reevaluated E src B t n t1 -> shows E src B c -> (n <= b_size (src_body src c))%N ->
    apply E t1 c = (ORequeued [t2], c') -> reevaluated E src B t (b_size (src_body src c)) t2.

(** * C47 *)
Lemma slice_next s a b : (a <= b)%N -> firstn (N.to_nat a) s ++ slice s a (b - a) = firstn (N.to_nat b) s.
Proof.
  intros H. unfold slice. rewrite <- (firstn_skipn (N.to_nat a) (firstn (N.to_nat b) s)), firstn_firstn. f_equal; [f_equal; lia|].
  rewrite skipn_firstn_comm. f_equal. lia.
Qed.
(** what the JSON parser has been given *)
Definition read_so_far (B : text) (p : jparser) : Prop :=
  (exists m, (m <= jp_consumed p)%N /\ jp_fed p = firstn (N.to_nat m) B) /\
  (jp_complete p = false -> jp_fed p = firstn (N.to_nat (jp_consumed p)) B).
Definition store_ok (B : text) (src : source) (fields : list text) (n : N) (bs : bstate) : Prop :=
  bs = BSPending src fields \/ (exists p, bs = BSActive src (BSse p)) \/
  (exists p, bs = BSActive src (BJson p) /\ jp_fields p = fields /\ (jp_consumed p <= n)%N /\ read_so_far B p).
Lemma jp_feed_read E B chunk p p' size : (jp_consumed p <= size)%N -> chunk = slice B (jp_consumed p) (size - jp_consumed p) -> length chunk = N.to_nat (size - jp_consumed p) ->
  read_so_far B p -> jp_feed E chunk p = Some p' ->
  jp_fields p' = jp_fields p /\ jp_consumed p' = size /\ read_so_far B p' /\ (jp_complete p = false -> jp_fed p' = firstn (N.to_nat size) B).
Proof.
  intros Hle Hch Hlen [(m & Hm & Hf) Hc] Hp. unfold jp_feed in Hp. assert (Hn : (jp_consumed p + N.of_nat (length chunk) = size)%N) by lia. rewrite Hn in Hp.
  destruct (jp_complete p) eqn:Hcp.
  - injection Hp as <-. split; [reflexivity|]. split; [reflexivity|]. split; [|discriminate]. split; [|discriminate]. exists m. split; [cbn; lia|exact Hf].
  - specialize (Hc eq_refl). assert (Hfed : jp_fed p ++ chunk = firstn (N.to_nat size) B) by (rewrite Hc, Hch; now apply slice_next).
    assert (K : forall p2, jp_fields p2 = jp_fields p -> jp_fed p2 = jp_fed p ++ chunk -> jp_consumed p2 = size ->
      jp_fields p2 = jp_fields p /\ jp_consumed p2 = size /\ read_so_far B p2 /\ (false = false -> jp_fed p2 = firstn (N.to_nat size) B)).
    { intros p2 H0 H1 H2. rewrite Hfed in H1. repeat split; auto; [|now rewrite H2]. exists size. split; [lia|exact H1]. }
    destruct (o_jfeed E (jp_fields p) (jp_fed p ++ chunk)); [unfold jp_extract in Hp; destruct (extract_raw _ _ _); [|discriminate]| |discriminate];
      injection Hp as <-; apply K; reflexivity.
Qed.
Lemma jp_finalize_read E B p p' : read_so_far B p -> jp_finalize E p = Some p' ->
  jp_fields p' = jp_fields p /\ jp_consumed p' = jp_consumed p /\ jp_fed p' = jp_fed p /\ read_so_far B p'.
Proof.
  intros Hr H. unfold jp_finalize, jp_extract in H. destruct (o_jfinish _ _ _); [|discriminate]. destruct (extract_raw _ _ _); [|discriminate]. injection H as <-. now repeat split; try apply Hr.
Qed.
Lemma slice_length s a b : (a <= b)%N -> (b <= N.of_nat (length s))%N -> length (slice s a (b - a)) = N.to_nat (b - a).
Proof. intros H1 H2. unfold slice. rewrite firstn_length, skipn_length. lia. Qed.
Lemma feed_read E src B p c r : shows E src B c -> read_so_far B p -> feed_parser E src (BJson p) c = RAvail r ->
  exists p', fst r = BJson p' /\ jp_fields p' = jp_fields p /\ jp_consumed p' = N.max (jp_consumed p) (b_size (src_body src c)) /\ read_so_far B p' /\
    (jp_complete p = false -> jp_fed p' = firstn (N.to_nat (N.max (jp_consumed p) (b_size (src_body src c)))) B).
Proof.
  intros [Hs1 Hs2] Hr H. unfold feed_parser in H. set (b := src_body src c) in *. destruct (N.eqb (b_size b) 0 && negb (b_eos b)); [discriminate|]. cbn [bp_consumed] in H.
  assert (K : forall p1, jp_fields p1 = jp_fields p -> jp_consumed p1 = N.max (jp_consumed p) (b_size b) -> read_so_far B p1 ->
    (jp_complete p = false -> jp_fed p1 = firstn (N.to_nat (N.max (jp_consumed p) (b_size b))) B) ->
    match (if b_eos b then match bp_finalize E (BJson p1) with Some p2 => match bp_remaining p2 with [] => Some p2 | _ => None end | None => None end else Some (BJson p1)) with
    | None => RErr | Some p2 => RAvail (p2, src_set src (bp_populate p2 b) c) end = RAvail r ->
    exists p', fst r = BJson p' /\ jp_fields p' = jp_fields p /\ jp_consumed p' = N.max (jp_consumed p) (b_size b) /\ read_so_far B p' /\
    (jp_complete p = false -> jp_fed p' = firstn (N.to_nat (N.max (jp_consumed p) (b_size b))) B)).
  { intros p1 K1 K2 K3 K4 K5. destruct (b_eos b).
    - cbn [bp_finalize] in K5. destruct (jp_finalize E p1) as [p2|] eqn:Hf; [|discriminate]. cbn [option_map] in K5. destruct (bp_remaining (BJson p2)); [|discriminate].
      injection K5 as <-. destruct (jp_finalize_read E B p1 p2 K3 Hf) as (F1 & F2 & F3 & F4). exists p2. rewrite F1, F2, F3. auto.
    - injection K5 as <-. exists p1. auto. }
  destruct (N.ltb_spec (jp_consumed p) (b_size b)) as [Hlt|Hge].
  - destruct (src_read E src (jp_consumed p) (b_size b - jp_consumed p) c) as [[x|]| |] eqn:Hread; try discriminate.
    apply Hs2 in Hread; [|fold b; lia]. cbn [bp_feed] in H. destruct (jp_feed E x p) as [p1|] eqn:Hf; [|discriminate].
    destruct (jp_feed_read E B x p p1 (b_size b)) as (F1 & F2 & F3 & F4); auto; [lia|rewrite Hread; apply slice_length; lia|].
    cbn [option_map] in H. apply (K p1); auto; [rewrite F2; lia|]. intros Hc. rewrite F4 by exact Hc. f_equal. lia.
  - apply (K p); auto; [lia|]. intros Hc. destruct Hr as [_ Hr]. rewrite Hr by exact Hc. f_equal. lia.
Qed.
Lemma shows_ext E src B c c' : c_log c' = c_log c -> src_body src c' = src_body src c -> shows E src B c -> shows E src B c'.
Proof. intros Hl Hb [H1 H2]. split; rewrite Hb; [exact H1|]. intros start len x Hle Hr. apply (H2 start len x Hle). unfold src_read in *. now rewrite Hl in Hr. Qed.
Lemma create_parser_facts E src fields c r c1 : create_parser E src fields c = (r, c1) -> c_log c1 = c_log c /\ src_body src c1 = src_body src c /\
  forall p, r = RAvail p -> p = BSse (sb_new fields) \/ p = BJson (mkJp fields [] [] 0 false).
Proof.
  assert (J : forall p, match jp_new E fields with Some p => RAvail (BJson p) | None => RErr end = RAvail p -> p = BSse (sb_new fields) \/ p = BJson (mkJp fields [] [] 0 false)).
  { intros p. unfold jp_new. destruct (o_jnew E fields); [|discriminate]. intros H. injection H as <-. now right. }
  unfold create_parser. destruct src; [intros H; injection H as <- <-; auto|]. destruct (read_headers E p_resp_headers c) as [r0 c0] eqn:Hr. apply read_headers_ext in Hr.
  pose proof (ext_log _ _ Hr) as Hl. pose proof (ext_respb _ _ Hr) as Hb. cbn [src_body].
  destruct r0 as [|h|]; intros H; injection H as <- <-; (split; [exact Hl|]); (split; [exact Hb|]); [discriminate| |exact J].
  destruct (is_sse_type h); [|exact J]. intros p [= <-]. now left.
Qed.
(** what is requeued by the part after the parser is the task itself *)
Lemma store_value_requeued E self id pred ex path export term c ts c' : store_value E self id pred ex path export term c = (ORequeued ts, c') -> ts = [self].
Proof.
  unfold store_value. destruct (test_in E pred (scope_vars id c) c) as [[[|[|]|] vs] c1]; try (intros [=]; fail); [intros [= <- _]; reflexivity|].
  destruct (eval_in E ex vs c1) as [[[|v|] vs2] c2]; try (intros [=]; fail); [intros [= <- _]; reflexivity|].
  destruct (if export then _ else _) as [ok c3]. destruct ok; [destruct term|]; intros [=].
Qed.
Lemma fresh_read B fields : read_so_far B (mkJp fields [] [] 0 false).
Proof. split; [exists 0%N; split; [cbn; lia|reflexivity]|reflexivity]. Qed.
Lemma store_step E src B fields n id pred ex path export term bs c ts c' :
  store_ok B src fields n bs -> shows E src B c -> (n <= b_size (src_body src c))%N ->
  apply E (TStore id pred ex path export term bs) c = (ORequeued ts, c') ->
  exists bs', ts = [TStore id pred ex path export term bs'] /\ store_ok B src fields (b_size (src_body src c)) bs'.
Proof.
  intros Hok Hsh Hn H. cbn [apply] in H. unfold apply_store in H. set (m := b_size (src_body src c)) in *.
  assert (R : forall p c1, c_log c1 = c_log c -> src_body src c1 = src_body src c -> store_ok B src fields m (BSActive src p) ->
    match feed_parser E src p c1 with
    | RPending => (ORequeued [TStore id pred ex path export term (BSActive src p)], c1)
    | RErr => (OFailed, c1)
    | RAvail (p', c2) => store_value E (TStore id pred ex path export term (BSActive src p')) id pred ex path export term c2
    end = (ORequeued ts, c') -> exists bs', ts = [TStore id pred ex path export term bs'] /\ store_ok B src fields m bs').
  { intros p c1 Hl Hb Hp HR. destruct (feed_parser E src p c1) as [|[p' c2]|] eqn:Hf; [injection HR as <- _; eauto| |discriminate]. apply store_value_requeued in HR as ->.
    eexists. split; [reflexivity|]. destruct Hp as [Hp|[(q & Hp)|(q & Hp & F1 & F2 & F3)]]; [discriminate|injection Hp as ->|injection Hp as ->].
    - right; left. unfold feed_parser in Hf. cbn [bp_feed bp_consumed] in Hf.
      assert (S : forall o, (forall x, o = RAvail x -> exists q', x = BSse q') -> match o with RPending => RPending | RErr => RErr | RAvail p1 =>
        match (if b_eos (src_body src c1) then match bp_finalize E p1 with Some p2 => match bp_remaining p2 with [] => Some p2 | _ => None end | None => None end else Some p1) with
        | None => RErr | Some p2 => RAvail (p2, src_set src (bp_populate p2 (src_body src c1)) c1) end end = RAvail (p', c2) -> exists q', BSActive src p' = BSActive src (BSse q')).
      { intros o Ho HS. destruct o as [|x|]; try discriminate. destruct (Ho x eq_refl) as (q' & ->). destruct (b_eos (src_body src c1)); [|injection HS as <- _; eauto].
        cbn [bp_finalize] in HS. destruct (sb_finalize E q') as [q2|]; [|discriminate]. cbn [option_map] in HS. destruct (bp_remaining (BSse q2)); [|discriminate]. injection HS as <- _. eauto. }
      destruct (N.eqb (b_size (src_body src c1)) 0 && negb (b_eos (src_body src c1))); [discriminate|]. revert Hf. apply S.
      destruct (0 <? b_size (src_body src c1))%N; [|intros x [= <-]; eauto]. destruct (src_read _ _ _ _ _) as [[x|]| |]; try (intros ? [=]; fail).
      destruct (sb_feed x q); [intros ? [= <-]; eauto|intros ? [=]].
    - right; right. destruct (feed_read E src B q c1 _ (shows_ext _ _ _ _ _ Hl Hb Hsh) F3 Hf) as (q' & G1 & G2 & G3 & G4 & _). cbn [fst] in G1. subst p'.
      exists q'. split; [reflexivity|]. split; [congruence|]. split; [rewrite G3, Hb; fold m; lia|exact G4]. }
  destruct Hok as [->|[(q & ->)|(q & -> & F1 & F2 & F3)]].
  - destruct (create_parser E src fields c) as [r c1] eqn:Hcp. apply create_parser_facts in Hcp as (Hl & Hb & Hp). destruct r as [|p|].
    + injection H as <- _. eexists. split; [reflexivity|]. now left.
    + apply (R p c1 Hl Hb); [|exact H]. destruct (Hp p eq_refl) as [->| ->]; [right; left; eauto|]. right; right. eexists. split; [reflexivity|]. split; [reflexivity|].
      split; [cbn; lia|apply fresh_read].
    + discriminate.
  - apply (R (BSse q) c eq_refl eq_refl); [right; left; eauto|exact H].
  - apply (R (BJson q) c eq_refl eq_refl); [|exact H]. right; right. exists q. split; [reflexivity|]. split; [exact F1|]. split; [lia|exact F3].
Qed.
Lemma reevaluated_ok E src B id pred ex path export term fields n t :
  reevaluated E src B (TStore id pred ex path export term (BSPending src fields)) n t ->
  exists bs, t = TStore id pred ex path export term bs /\ store_ok B src fields n bs.
Proof.
  induction 1 as [|n t1 c t2 c' _ (bs & -> & IH) Hs Hn Ha]; [eexists; split; [reflexivity|now left]|].
  destruct (store_step E src B fields n id pred ex path export term bs c [t2] c' IH Hs Hn Ha) as (bs' & Hts & Hok). injection Hts as ->. eauto.
Qed.
(** the parser a store action begins an evaluation with *)
Definition begins (E : env) (src : source) (fields : list text) (bs : bstate) (c : ctx) (p : jparser) (c1 : ctx) : Prop :=
  bs = BSActive src (BJson p) /\ c1 = c \/ bs = BSPending src fields /\ create_parser E src fields c = (RAvail (BJson p), c1).
(** However often a store action that reads a body was evaluated while the body came in, when it
    feeds its JSON parser again the parser has been given the body up to what the host shows
    now, each byte once and in order, unless the parser has seen the end of the document before;
    even then it was given a prefix of the body. *)
Theorem C47_every_byte_is_parsed_once : forall E src B id pred ex path export term fields n bs c p c1 p' c',
  reevaluated E src B (TStore id pred ex path export term (BSPending src fields)) n (TStore id pred ex path export term bs) ->
  shows E src B c -> (n <= b_size (src_body src c))%N -> begins E src fields bs c p c1 -> feed_parser E src (BJson p) c1 = RAvail (BJson p', c') ->
  (exists m, jp_fed p' = firstn m B) /\ (jp_complete p = false -> jp_fed p' = firstn (N.to_nat (b_size (src_body src c))) B).
Proof.
  intros E src B id pred ex path export term fields n bs c p c1 p' c' Hre Hsh Hn Hb Hf. apply reevaluated_ok in Hre as (bs' & Hbs & Hok). injection Hbs as <-.
  assert (K : shows E src B c1 /\ src_body src c1 = src_body src c /\ (jp_consumed p <= n)%N /\ read_so_far B p).
  { destruct Hb as [(-> & ->)|(-> & Hcp)].
    - destruct Hok as [Hp|[(q & Hp)|(q & Hp & F1 & F2 & F3)]]; [discriminate|discriminate|]. injection Hp as <-. auto.
    - apply create_parser_facts in Hcp as (Hl & Hb & Hp). split; [now apply shows_ext with (c := c)|]. split; [exact Hb|].
      destruct (Hp _ eq_refl) as [Hq|Hq]; [discriminate|]. injection Hq as ->. split; [cbn; lia|apply fresh_read]. }
  destruct K as (K1 & K2 & K3 & K4). destruct (feed_read E src B p c1 _ K1 K4 Hf) as (q & G1 & G2 & G3 & [(m & G4 & G5) _] & G6). cbn [fst] in G1. injection G1 as <-.
  split; [eauto|]. intros Hc. rewrite G6 by exact Hc. rewrite K2. f_equal. lia.
Qed.
Print Assumptions C47_every_byte_is_parsed_once.

(** * Hosts for the examples *)
Definition with_json (E : env) (js : text -> option json) (ptr : json -> text -> option json) (jf : list text -> text -> bool) (jr : list text -> text -> list (text * text)) : env :=
  mkEnv (h_prop E) (h_map E) (h_reqheader E) (h_setprop E) (h_setmap E) (h_reqbody E) (h_respbody E) (h_dispatch E) (h_grpcresp E) (h_reply E) (o_parse E) (o_cel E) js ptr (o_jshow E) (o_f64 E)
    (o_jnew E) (o_jfeed E) jr jf (o_encode E) (o_decode E) (o_uuid E) (o_trace E) (o_span_on E) (o_spans E) (o_alpha E).
(** the interpreter of Demo.v, with the two body functions *)
Definition cel_body : log -> ast -> list (text * value) -> option value := fun l a vs =>
  match a with
  | ACall None f [ALit (VString p)] =>
      match tget (if text_eqb f (tx "requestBodyJSON") then req_json_var else resp_json_var) vs with Some (VMap m) => aget mkey_eqb (KStr p) m | _ => None end
  | _ => cel_demo l a vs
  end.
(** the only JSON document is [doc], with the field [/a] that reads "ok" *)
Definition doc : text := tx "{a:ok}".
Definition Eb (ct : string) (rd : log -> N -> N -> hres (option text)) : env :=
  with_json (e_map (e_body (e_cel Ed cel_body) rd rd) (fun _ m => match m with MReq => HOk [] | MResp => HOk [(tx "content-type", tx ct)] end))
    (fun s => if text_eqb s doc then Some (JStr s) else None) (fun _ f => if text_eqb f (tx "/a") then Some (JStr (tx "ok")) else None)
    (fun _ s => text_eqb s doc) (fun _ s => if text_eqb s doc then [(tx "/a", tx "ok")] else []).
(** a host that shows prefixes of [B] *)
Definition growing (B : text) : log -> N -> N -> hres (option text) := fun _ start len => HOk (Some (slice B start len)).
(** a host that shows the pieces of [Bs] one after the other *)
Definition pieces_so_far (l : log) : nat := length (filter (fun e => match e with EvRespBody _ _ => true | _ => false end) l).
Definition chunked (Bs : list text) : log -> N -> N -> hres (option text) := fun l start len => HOk (Some (slice (nth (pieces_so_far l - 1) Bs []) start len)).
Definition dstore (e : string) : action_cfg := CTyped (mkT (tx "true") false false false (OpStore (tx "p") (tx e) true)).
(** "ok" as an exported value: field 3 of google.protobuf.Value, two bytes *)
Definition ok_bytes : text := [ascii_of_N 26; ascii_of_N 2] ++ tx "ok".
(** what was stored in the host's state *)
Definition stored (l : log) : list text := flat_map (fun e => match e with EvSetProp _ v true => [v] | _ => [] end) l.
Definition outcome_of (E : env) (l : list fin) : list text := stored (dlog E [dstore "respbody"] l).

Definition reqx : expr := expr_of (ACall None (tx "requestBodyJSON") [ALit (VString (tx "/a"))]).
Example ex47 : exists c c' p c2 p' c3,
  reevaluated (Eb "x" (growing doc)) SrcReq doc (TStore (tx "0") true_expr reqx (tx "p") false false (BSPending SrcReq [tx "/a"])) 3
    (TStore (tx "0") true_expr reqx (tx "p") false false (BSActive SrcReq (BJson p))) /\
  shows (Eb "x" (growing doc)) SrcReq doc c2 /\ feed_parser (Eb "x" (growing doc)) SrcReq (BJson p) c2 = RAvail (BJson p', c3) /\ jp_complete p = false /\ jp_fed p' = doc /\
  apply (Eb "x" (growing doc)) (TStore (tx "0") true_expr reqx (tx "p") false false (BSActive SrcReq (BJson p))) c = (ODone, c').
Proof.
  exists (with_reqb (ctx0 []) (mkBody 6 true [])). eexists. exists (mkJp [tx "/a"] (firstn 3 doc) [] 3 false), (with_reqb (ctx0 []) (mkBody 6 true [])). eexists _, _.
  assert (Hs : forall n eos, (n <= 6)%N -> shows (Eb "x" (growing doc)) SrcReq doc (with_reqb (ctx0 []) (mkBody n eos []))).
  { intros n eos Hn. split; [exact Hn|]. intros start len x _ [= <-]. reflexivity. }
  split; [|split; [apply Hs; lia|split; [vm_compute; reflexivity|split; [reflexivity|split; [vm_compute; reflexivity|vm_compute; reflexivity]]]]].
  apply (re_again (Eb "x" (growing doc)) SrcReq doc _ 0 (TStore (tx "0") true_expr reqx (tx "p") false false (BSPending SrcReq [tx "/a"])) (with_reqb (ctx0 []) (mkBody 3 false [])) _ (with_reqb (ctx0 []) (mkBody 3 false []))).
  - constructor.
  - apply Hs. lia.
  - cbn. lia.
  - vm_compute. reflexivity.
Qed.

(** * C48 *)
Definition sse_doc : text := tx "data: {a:ok}" ++ [LF; LF] ++ tx "data: [DONE]" ++ [LF; LF].
(** An event stream that arrives while the buffer grows is parsed from the start again at each
    evaluation: the same body is extracted when it comes at once, and is not when it comes in two. *)
Theorem C48_event_streams_are_parsed_twice_refuted : exists E n m, (forall l start len, h_respbody E l start len = HOk (Some (slice sse_doc start len))) /\
  (n < m)%N /\ m = N.of_nat (length sse_doc) /\
  outcome_of E [InRespHeaders; InRespBody m true] = [ok_bytes] /\ outcome_of E [InRespHeaders; InRespBody n false; InRespBody m true] = [].
Proof. exists (Eb "text/event-stream" (growing sse_doc)), 9%N, 28%N. split; [reflexivity|]. split; [reflexivity|]. split; [reflexivity|]. split; vm_compute; reflexivity. Qed.
Print Assumptions C48_event_streams_are_parsed_twice_refuted.
(** The buffer of the token usage task is doubled too *)
Theorem C48_usage_is_parsed_twice_refuted : exists E c1 c2 t1 t2 c1' c2', (forall l start len, h_respbody E l start len = HOk (Some (slice doc start len))) /\
  b_size (c_respb c1) = 3%N /\ b_size (c_respb c2) = 6%N /\ b_eos (c_respb c1) = false /\ b_eos (c_respb c2) = true /\
  apply E (TToken None [tx "/a"]) c2 = (t2, c2') /\ tget (tx "/a") (b_vals (c_respb c2')) = Some (VString (tx "ok")) /\
  apply E (TToken None [tx "/a"]) c1 = (ORequeued [t1], c1') /\ tget (tx "/a") (b_vals (c_respb (snd (apply E t1 c2)))) = None.
Proof.
  exists (Eb "application/json" (growing doc)), (with_respb (ctx0 []) (mkBody 3 false [])), (with_respb (ctx0 []) (mkBody 6 true [])).
  exists (TToken (Some (StJson (firstn 3 doc))) [tx "/a"]). eexists _, _, _. split; [reflexivity|]. split; [reflexivity|]. split; [reflexivity|]. split; [reflexivity|]. split; [reflexivity|].
  split; [vm_compute; reflexivity|]. split; [vm_compute; reflexivity|]. split; vm_compute; reflexivity.
Qed.
Print Assumptions C48_usage_is_parsed_twice_refuted.

(** * C80 *)
(** A host that hands over a JSON body piece by piece, each time showing the piece only: the
    store action skips as many bytes as it has seen before. *)
Theorem C80_pieces_of_json_bodies_refuted : exists E B1 B2, B1 ++ B2 = doc /\ (forall l start len, h_respbody E l start len = chunked [B1; B2] l start len) /\
  outcome_of (Eb "application/json" (growing doc)) [InRespHeaders; InRespBody 6 true] = [ok_bytes] /\
  outcome_of E [InRespHeaders; InRespBody (N.of_nat (length B1)) false; InRespBody (N.of_nat (length B2)) true] = [].
Proof.
  exists (Eb "application/json" (chunked [firstn 3 doc; skipn 3 doc])), (firstn 3 doc), (skipn 3 doc). split; [reflexivity|]. split; [reflexivity|]. split; vm_compute; reflexivity.
Qed.
Print Assumptions C80_pieces_of_json_bodies_refuted.
(** The token usage task: each evaluation sees one piece, which is not empty *)
Inductive usage_fed (E : env) (fields : list text) : option strategy -> list text -> option strategy -> Prop :=
| uf_start s : usage_fed E fields s [] s
| uf_next s Bs s1 c B s2 c' : usage_fed E fields s Bs s1 -> B <> [] -> b_size (c_respb c) = N.of_nat (length B) ->
    (forall c1, c_log c1 = c_log c -> h_respbody E (c_log c1) 0 (b_size (c_respb c)) = HOk (Some B)) ->
    apply E (TToken s1 fields) c = (ORequeued [TToken (Some s2) fields], c') -> usage_fed E fields s (Bs ++ [B]) (Some s2).
(** both kinds of body *)
Definition first_strategy (s : strategy) : Prop := s = StSse sparser0 (None, None) \/ s = StJson [].
Lemma usage_fold E fields Bs s' : usage_fed E fields None Bs (Some s') -> exists s, first_strategy s /\ s' = st_feed_all s Bs.
Proof.
  intros H. remember None as s0 eqn:H0. remember (Some s') as s1 eqn:H1. revert s' H1. induction H as [s|s Bs s1 c B s2 c' Hu IH Hne Hn Hr Ha]; intros s' H1; [congruence|].
  injection H1 as <-. assert (Hlt : (0 <? b_size (c_respb c))%N = true) by (rewrite Hn; destruct B; [easy|reflexivity]).
  assert (G : forall s c1, c_log c1 = c_log c -> c_respb c1 = c_respb c ->
    (let fed := if (0 <? b_size (c_respb c1))%N then match h_respbody E (c_log c1) 0 (b_size (c_respb c1)) with
                | HOk (Some bytes) => RAvail (st_feed bytes s) | HOk None => RAvail s | HNotAvail => RPending | HErr => RErr end else RAvail s in
     match fed with RPending => (ORequeued [TToken (Some s) fields], c1) | RErr => (OFailed, c1)
     | RAvail s' => if b_eos (c_respb c1) then (ODone, with_respb c1 (st_populate E fields s' (c_respb c1))) else (ORequeued [TToken (Some s') fields], c1) end)
    = (ORequeued [TToken (Some s2) fields], c') -> s2 = st_feed B s).
  { intros s0' c1 Hl Hb HG. cbv zeta in HG. rewrite Hb, Hlt, (Hr c1 Hl) in HG. destruct (b_eos (c_respb c)); [discriminate|]. injection HG as <- _. reflexivity. }
  destruct s1 as [s1|].
  - destruct (IH H0 s1 eq_refl) as (s0' & Hf & ->). exists s0'. split; [exact Hf|]. unfold st_feed_all. rewrite fold_left_app. cbn [fold_left]. now apply (G _ c eq_refl eq_refl).
  - assert (HBs : Bs = []).
    { clear -Hu. inversion Hu; reflexivity. }
    subst Bs. cbn [apply] in Ha. unfold apply_token in Ha. destruct (read_headers E p_resp_headers c) as [[|h|] c1] eqn:Hh; [discriminate| |discriminate].
    apply read_headers_ext in Hh. exists (select_strategy h). split; [unfold select_strategy; destruct (is_sse_type h); [now left|now right]|].
    unfold st_feed_all. cbn [app fold_left]. apply (G _ c1 (ext_log _ _ Hh) (ext_respb _ _ Hh)). exact Ha.
Qed.
Lemma sse_chunks Bs : forall p l, Forall good Bs -> Bs <> [] -> exists p' l', st_feed_all (StSse p l) Bs = StSse p' l' /\ st_feed (concat Bs) (StSse p l) = StSse p' l'.
Proof.
  intros p l Hg Hne. destruct (C41_chunking_does_not_matter_partial Bs p Hg Hne) as (es & p' & H1 & H2). exists p', (fold_left (fun l e => push_event e l) es l).
  split; [|cbn [st_feed]; now rewrite H2]. clear H2 Hne. revert p l es p' H1. induction Bs as [|B Bs IH]; intros p l es p' H; cbn [feed_all] in H; [injection H as <- <-; reflexivity|].
  unfold st_feed_all in *. cbn [fold_left st_feed]. inversion_clear Hg as [|? ? _ Hg']. destruct (sse_parse B p) as [e1 p1| |]; try discriminate. destruct (feed_all p1 Bs) as [[e2 p2]|] eqn:Hf; [|discriminate].
  injection H as <- <-. rewrite fold_left_app. now apply IH.
Qed.
(** With such a host the token usage task finds in the pieces what it would find in the whole
    body, if no piece begins or ends inside a character.
    Missing for the full claim: store actions with JSON bodies, see the refutation. *)
Theorem C80_usage_is_found_in_pieces_partial : forall E fields Bs s f, usage_fed E fields None Bs (Some s) -> Forall good Bs ->
  exists s0, first_strategy s0 /\ st_extract E f s = st_extract E f (st_feed (concat Bs) s0).
Proof.
  intros E fields Bs s f Hu Hg. assert (Hne : Bs <> []) by (inversion Hu; subst; destruct Bs0; easy). destruct (usage_fold E fields Bs s Hu) as (s0 & [-> | ->] & ->).
  - exists (StSse sparser0 (None, None)). split; [now left|]. destruct (sse_chunks Bs sparser0 (None, None) Hg Hne) as (p & l & -> & ->). reflexivity.
  - exists (StJson []). split; [now right|]. f_equal. cbn [st_feed]. clear. assert (K : forall buf, st_feed_all (StJson buf) Bs = StJson (buf ++ concat Bs)); [|apply K].
    induction Bs as [|B Bs IH]; intros buf; [cbn; now rewrite app_nil_r|]. unfold st_feed_all in *. cbn [fold_left st_feed concat]. now rewrite IH, app_assoc.
Qed.
Print Assumptions C80_usage_is_found_in_pieces_partial.
Example ex80 : exists s, usage_fed (Eb "application/json" (chunked [firstn 3 doc; skipn 3 doc])) [tx "/a"] None [firstn 3 doc] (Some s).
Proof.
  exists (StJson (firstn 3 doc)). apply (uf_next _ _ None [] None (with_respb (ctx0 []) (mkBody 3 false [])) (firstn 3 doc) (StJson (firstn 3 doc)) (snd (apply (Eb "application/json" (chunked [firstn 3 doc; skipn 3 doc])) (TToken None [tx "/a"]) (with_respb (ctx0 []) (mkBody 3 false []))))).
  - constructor.
  - discriminate.
  - reflexivity.
  - intros c1 ->. vm_compute. reflexivity.
  - vm_compute. reflexivity.
Qed.

(** * C49 *)
(** A JSON string that looks like something else becomes it: both documents look the same *)
Theorem C49_strings_change_type_refuted : exists E fields fed p1, fields = [tx "/a"] /\
  o_jraw E fields fed = [(tx "/a", tx "42")] /\ jp_extract E (mkJp fields fed [] 0 true) = Some p1 /\ tget (tx "/a") (jp_extracted p1) = Some (VInt 42) /\
  json_scalar E (tx "true") = VBool true /\ json_scalar E (tx "null") = VNull.
Proof.
  exists (with_json E0 (fun _ => None) (fun _ _ => None) (fun _ _ => true) (fun _ _ => [(tx "/a", tx "42")])), [tx "/a"], []. eexists.
  split; [reflexivity|]. split; [reflexivity|]. split; [vm_compute; reflexivity|]. split; [vm_compute; reflexivity|]. split; vm_compute; reflexivity.
Qed.
Print Assumptions C49_strings_change_type_refuted.
(** decimal text *)
Definition digit (d : N) : ascii := ascii_of_N (48 + d).
Definition number (ds : list N) : N := fold_left (fun a d => a * 10 + d)%N ds 0%N.
Lemma digits_read ds : Forall (fun d => d < 10)%N ds -> forall acc, dec_digits acc (map digit ds) = Some (fold_left (fun a d => a * 10 + d)%N ds acc).
Proof.
  induction 1 as [|d ds Hd _ IH]; intros acc; [reflexivity|]. cbn [map dec_digits fold_left].
  assert (K : is_digit (digit d) = true /\ (bval (digit d) - 48 = d)%N).
  { assert (Hin : In d [0;1;2;3;4;5;6;7;8;9]%N) by (cbn; lia). repeat (destruct Hin as [<-|Hin]; [vm_compute; auto|]). destruct Hin. }
  destruct K as [-> ->]. apply IH.
Qed.
Lemma digit_not d c : (d < 10)%N -> In c ["-"; "+"; "n"; "t"; "f"]%char -> Ascii.eqb (digit d) c = false.
Proof.
  intros Hd Hc. assert (Hin : In d [0;1;2;3;4;5;6;7;8;9]%N) by (cbn; lia). cbn in Hc.
  repeat (destruct Hc as [<-|Hc]; [repeat (destruct Hin as [<-|Hin]; [reflexivity|]); destruct Hin|]). destruct Hc.
Qed.
Lemma not_word d ds w c r : (d < 10)%N -> w = c :: r -> In c ["-"; "+"; "n"; "t"; "f"]%char -> text_eqb (digit d :: map digit ds) w = false.
Proof.
  intros Hd -> Hc. destruct (text_eqb (digit d :: map digit ds) (c :: r)) eqn:He; [|reflexivity]. apply text_eqb_eq in He. injection He as He _.
  pose proof (digit_not d c Hd Hc) as K. rewrite He, Ascii.eqb_refl in K. discriminate.
Qed.
(** null, booleans and integers that fit come out with their type and value; so does every text
    that is none of these and no number.
    Missing for the full claim: strings that look like null, booleans or numbers; floats, whose
    text is read by an oracle; strings with escapes, which the parser keeps as they are written. *)
Theorem C49_scalars_keep_their_type_partial : forall E,
  json_scalar E (tx "null") = VNull /\ json_scalar E (tx "true") = VBool true /\ json_scalar E (tx "false") = VBool false /\
  (forall ds, ds <> [] -> Forall (fun d => d < 10)%N ds ->
    ((number ds < 2 ^ 63)%N -> json_scalar E (map digit ds) = VInt (Z.of_N (number ds))) /\
    ((2 ^ 63 <= number ds < 2 ^ 64)%N -> json_scalar E (map digit ds) = VUInt (number ds)) /\
    ((number ds <= 2 ^ 63)%N -> json_scalar E ("-"%char :: map digit ds) = VInt (- Z.of_N (number ds)))) /\
  (forall s c, In c s -> is_digit c = false -> hd_error s <> Some "-"%char -> hd_error s <> Some "+"%char -> ~ In s [tx "null"; tx "true"; tx "false"] -> o_f64 E s = None ->
    json_scalar E s = VString s).
Proof.
  intros E. split; [reflexivity|]. split; [reflexivity|]. split; [reflexivity|]. split.
  - intros ds Hne Hd. destruct ds as [|d ds]; [easy|]. pose proof (digits_read (d :: ds) Hd 0) as Hr. change (fold_left (fun a d => a * 10 + d)%N (d :: ds) 0%N) with (number (d :: ds)) in Hr.
    inversion_clear Hd as [|? ? Hd1 _].
    assert (W : forall w c r, w = c :: r -> In c ["-"; "+"; "n"; "t"; "f"]%char -> text_eqb (map digit (d :: ds)) w = false) by (intros w c r; apply not_word; exact Hd1).
    assert (I : dec_i64 (map digit (d :: ds)) = if (number (d :: ds) <? 9223372036854775808)%N then Some (Z.of_N (number (d :: ds))) else None).
    { unfold dec_i64. cbn [map]. rewrite !(digit_not d) by (auto; cbn; tauto). cbn [orb]. change (digit d :: map digit ds) with (map digit (d :: ds)). now rewrite Hr. }
    assert (U : dec_u64 (map digit (d :: ds)) = if (number (d :: ds) <? 18446744073709551616)%N then Some (number (d :: ds)) else None).
    { unfold dec_u64. cbn [map]. rewrite !(digit_not d) by (auto; cbn; tauto). change (digit d :: map digit ds) with (map digit (d :: ds)). now rewrite Hr. }
    assert (J : json_scalar E (map digit (d :: ds)) = match dec_i64 (map digit (d :: ds)) with Some z => VInt z | None => match dec_u64 (map digit (d :: ds)) with Some n => VUInt n | None => match o_f64 E (map digit (d :: ds)) with Some b => VFloat b | None => VString (map digit (d :: ds)) end end end).
    { unfold json_scalar. rewrite (W (tx "null") "n"%char (tx "ull")) by (auto; cbn; tauto). rewrite (W (tx "true") "t"%char (tx "rue")) by (auto; cbn; tauto).
      now rewrite (W (tx "false") "f"%char (tx "alse")) by (auto; cbn; tauto). }
    change (2 ^ 63)%N with 9223372036854775808%N. change (2 ^ 64)%N with 18446744073709551616%N. rewrite J, I, U. split; [|split].
    + intros H. apply N.ltb_lt in H. now rewrite H.
    + intros [H1 H2]. apply N.ltb_ge in H1. apply N.ltb_lt in H2. now rewrite H1, H2.
    + intros H. unfold json_scalar. change (text_eqb ("-"%char :: map digit (d :: ds)) (tx "null")) with false. change (text_eqb ("-"%char :: map digit (d :: ds)) (tx "true")) with false.
      change (text_eqb ("-"%char :: map digit (d :: ds)) (tx "false")) with false. cbn match. unfold dec_i64. change (Ascii.eqb "-" "-") with true. cbn [orb]. cbn match.
      cbn [map]. change (digit d :: map digit ds) with (map digit (d :: ds)). rewrite Hr. apply N.leb_le in H. now rewrite H.
  - intros s c Hi Hc Hm Hp Hw Hf.
    assert (D : forall t acc, In c t -> dec_digits acc t = None).
    { induction t as [|x t IH]; intros acc Ht; [destruct Ht|]. destruct Ht as [->|Ht]; cbn [dec_digits]; [now rewrite Hc|]. destruct (is_digit x); [now apply IH|reflexivity]. }
    destruct s as [|x s]; [destruct Hi|]. cbn [hd_error] in *.
    assert (Hx1 : Ascii.eqb x "-" = false) by (apply Ascii.eqb_neq; congruence). assert (Hx2 : Ascii.eqb x "+" = false) by (apply Ascii.eqb_neq; congruence).
    unfold json_scalar. destruct (text_eqb (x :: s) (tx "null")) eqn:E1; [apply text_eqb_eq in E1; destruct Hw; rewrite E1; cbn; tauto|].
    destruct (text_eqb (x :: s) (tx "true")) eqn:E2; [apply text_eqb_eq in E2; destruct Hw; rewrite E2; cbn; tauto|].
    destruct (text_eqb (x :: s) (tx "false")) eqn:E3; [apply text_eqb_eq in E3; destruct Hw; rewrite E3; cbn; tauto|].
    unfold dec_i64, dec_u64. rewrite Hx1, Hx2. cbn [orb]. rewrite (D (x :: s) 0%N Hi). now rewrite Hf.
Qed.
Print Assumptions C49_scalars_keep_their_type_partial.
Example ex49 : json_scalar E0 (tx "-9223372036854775808") = VInt (-9223372036854775808) /\ json_scalar E0 (tx "18446744073709551615") = VUInt 18446744073709551615 /\
  json_scalar E0 (tx "gpt-4") = VString (tx "gpt-4") /\ number [4; 2]%N = 42%N /\ map digit [4; 2]%N = tx "42".
Proof. split; [vm_compute; reflexivity|]. split; [vm_compute; reflexivity|]. split; [vm_compute; reflexivity|]. split; vm_compute; reflexivity. Qed.
(** The token usage task keeps the type of every scalar but null, whatever its text *)
Theorem C49_usage_keeps_types : forall E fields s b f j, In f fields -> st_extract E f s = Some j ->
  match j with
  | JStr t => tget f (b_vals (st_populate E fields s b)) = Some (VString t)
  | JBool v => tget f (b_vals (st_populate E fields s b)) = Some (VBool v)
  | JNum (JPos n) => tget f (b_vals (st_populate E fields s b)) = Some (VUInt n)
  | JNum (JNeg z) => tget f (b_vals (st_populate E fields s b)) = Some (VInt z)
  | _ => True
  end.
Proof.
  intros E fields s b f j Hi Hj.
  assert (O : forall fs b', ~ In f fs -> tget f (b_vals (st_populate E fs s b')) = tget f (b_vals b')).
  { induction fs as [|g fs IH]; intros b' Hn; [reflexivity|]. unfold st_populate in *. cbn [fold_left]. rewrite IH by (intros H; apply Hn; now right).
    destruct (st_extract E g s) as [k|]; [|reflexivity]. destruct (st_value k) as [v|]; [|reflexivity]. cbn [set_value b_vals]. apply (aget_aset_other text_eqb text_eqb_eq).
    intros ->. apply Hn. now left. }
  assert (V : forall v, st_value j = Some v -> tget f (b_vals (st_populate E fields s b)) = Some v).
  { intros v Hv. clear -Hi Hj Hv O. revert b. induction fields as [|g fs IH]; intros b; [destruct Hi|]. destruct (in_dec text_eq_dec f fs) as [Hin|Hg]; [now apply IH|]. destruct Hi as [->|Hi]; [|easy].
    change (st_populate E (f :: fs) s b) with (st_populate E fs s (match st_extract E f s with Some j => match st_value j with Some v => set_value f v b | None => b end | None => b end)).
      rewrite Hj, Hv, (O fs _ Hg). cbn [set_value b_vals]. apply (aget_aset_same text_eqb text_eqb_eq). }
  destruct j as [|v|k|t| |]; try exact Logic.I; [now apply V|destruct k; try exact Logic.I; now apply V|now apply V].
Qed.
Print Assumptions C49_usage_keeps_types.
