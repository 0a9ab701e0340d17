(** C41 - C46: event streams. *)
From Coq Require Import String Ascii List NArith Bool Lia Arith.
From Verif Require Import Base Value Headers AttrPath Ctx Sse Body P_Utf8 P_Sse Demo.
Import ListNotations.
Open Scope list_scope.

(** * Specifications (lines, blocks and the event of a block are specified in P_Sse.v) *)
(** feeding chunks one after the other; [None] is an error *)
Fixpoint feed_all (p : sparser) (chunks : list text) : option (list event * sparser) :=
  match chunks with
  | [] => Some ([], p)
  | c :: cs => match sse_parse c p with
               | POk es p1 => match feed_all p1 cs with Some (es', p2) => Some (es ++ es', p2) | None => None end
               | _ => None
               end
  end.
Definition good (s : text) : Prop := utf8_valid s = true.

(** * C41 *)
Lemma good_concat cs : Forall good cs -> good (concat cs).
Proof. induction 1 as [|c cs Hc _ IH]; [reflexivity|]. cbn. now apply valid_app. Qed.
Lemma empty_chunk p : cut (sp_buf p) = None -> sse_parse [] p = POk [] p.
Proof.
  intros H. rewrite parse_lines by reflexivity. rewrite app_nil_r. unfold lines. rewrite lines_cut, H. cbn. now destruct p.
Qed.
Lemma two_chunks a b p : good a -> good b ->
  exists e1 p1 e2 p2, sse_parse a p = POk e1 p1 /\ sse_parse b p1 = POk e2 p2 /\ sse_parse (a ++ b) p = POk (e1 ++ e2) p2.
Proof.
  intros Ha Hb. rewrite (parse_lines a p Ha), (parse_lines (a ++ b) p (valid_app _ _ Ha Hb)). rewrite app_assoc, (lines_app (sp_buf p ++ a) b).
  destruct (lines (sp_buf p ++ a)) as [l1 r1]. destruct (feed_lines (sp_bld p) l1) as [e1 b1] eqn:H1.
  exists e1, (mkSparser r1 b1). rewrite (parse_lines b _ Hb). cbn [sp_buf sp_bld]. destruct (lines (r1 ++ b)) as [l2 r2].
  rewrite feed_app, H1.
  destruct (feed_lines b1 l2) as [e2 b2]. eexists _, _. split; [reflexivity|]. split; reflexivity.
Qed.
(** However a stream is cut into chunks of whole characters, the same events come out and the
    parser ends in the same state, whatever state it starts from.
    Missing for the full claim: cuts inside a character, see C45. *)
Theorem C41_chunking_does_not_matter_partial : forall chunks p, Forall good chunks -> chunks <> [] ->
  exists es p', feed_all p chunks = Some (es, p') /\ sse_parse (concat chunks) p = POk es p'.
Proof.
  induction chunks as [|c cs IH]; intros p Hg Hne; [easy|]. inversion_clear Hg as [|? ? Hc Hcs]. destruct cs as [|d cs].
  - cbn [feed_all concat]. rewrite app_nil_r. destruct (two_chunks c [] p Hc eq_refl) as (e1 & p1 & _ & _ & -> & _). rewrite app_nil_r. eauto.
  - assert (Hne' : d :: cs <> []) by easy. destruct (two_chunks c (concat (d :: cs)) p Hc (good_concat _ Hcs)) as (e1 & p1 & e2 & p2 & H1 & H2 & H3).
    destruct (IH p1 Hcs Hne') as (es & p' & I1 & I2). rewrite I2 in H2. injection H2 as <- <-. exists (e1 ++ es), p'. split; [|exact H3].
    cbn [feed_all] in *. now rewrite H1, I1.
Qed.
Print Assumptions C41_chunking_does_not_matter_partial.
Definition crlf : text := [CR; LF].
Definition stream1 : text := tx "event: a" ++ crlf ++ tx "data: 1" ++ crlf ++ crlf ++ tx "data: 2" ++ [LF; LF] ++ tx "da".
Example ex41 : sse_parse stream1 sparser0 = POk [mkEvent (tx "a") (tx "1") [] None; mkEvent (tx "message") (tx "2") [] None] (mkSparser (tx "da") builder0) /\
  feed_all sparser0 (map (fun c => [c]) stream1) = Some ([mkEvent (tx "a") (tx "1") [] None; mkEvent (tx "message") (tx "2") [] None], mkSparser (tx "da") builder0).
Proof. split; vm_compute; reflexivity. Qed.

(** * C44 *)
(** Parsing valid UTF-8 never fails and never runs out of the steps the model gives it; what
    is kept has no LF, and a CR at its very end only. *)
Theorem C44_parsing_succeeds_and_keeps_an_unfinished_line : forall chunk p, good chunk ->
  exists es p', sse_parse chunk p = POk es p' /\ ~ In LF (sp_buf p') /\ forall a b, sp_buf p' = a ++ CR :: b -> b = [].
Proof.
  intros chunk p H. rewrite (parse_lines chunk p H). pose proof (lines_rest (sp_buf p ++ chunk)) as Hr. destruct (lines (sp_buf p ++ chunk)) as [ls r].
  destruct (feed_lines (sp_bld p) ls) as [es b]. eexists _, _. split; [reflexivity|]. now apply cut_None.
Qed.
Print Assumptions C44_parsing_succeeds_and_keeps_an_unfinished_line.
Example ex44 : exists es b, sse_parse (tx "data: x" ++ [LF] ++ tx "id: 7" ++ [CR]) sparser0 = POk es (mkSparser (tx "id: 7" ++ [CR]) b).
Proof. eexists _, _. vm_compute. reflexivity. Qed.

(** * C45 *)
Theorem C45_cut_inside_a_character_refuted : exists a b, good (a ++ b) /\
  (exists e p, sse_parse (a ++ b) sparser0 = POk [e] p) /\ feed_all sparser0 [a; b] = None.
Proof.
  exists (tx "data: " ++ [ascii_of_N 195]), (ascii_of_N 169 :: [LF; LF]). split; [vm_compute; reflexivity|]. split; [eexists _, _; vm_compute; reflexivity|vm_compute; reflexivity].
Qed.
Print Assumptions C45_cut_inside_a_character_refuted.

(** * C43 *)
(** the data lines of a block: none, or neither the first nor the last of them is empty *)
Definition regular (block : list text) : Prop :=
  let ds := values (tx "data") block in ds = [] \/ (hd [] ds <> [] /\ last ds [] <> []).
Lemma pile_join d ds : d <> [] -> fold_left pile1 ds d = join [LF] (d :: ds).
Proof.
  revert d. induction ds as [|v ds IH]; intros d Hd; [reflexivity|]. cbn [fold_left]. rewrite IH by (destruct d; easy).
  destruct d as [|c d]; [easy|]. cbn [pile1]. change (join [LF] ((c :: d) :: v :: ds)) with ((c :: d) ++ [LF] ++ join [LF] (v :: ds)).
  destruct ds as [|w ds]; [reflexivity|]. change (join [LF] (((c :: d) ++ LF :: v) :: w :: ds)) with (((c :: d) ++ LF :: v) ++ [LF] ++ join [LF] (w :: ds)).
  change (join [LF] (v :: w :: ds)) with (v ++ [LF] ++ join [LF] (w :: ds)). now rewrite <- !app_assoc.
Qed.
Lemma join_last ds : ds <> [] -> exists x, join [LF] ds = x ++ last ds [].
Proof.
  induction ds as [|d ds IH]; [easy|]. intros _. destruct ds as [|w ds]; [now exists []|]. destruct IH as (x & Hx); [easy|].
  change (join [LF] (d :: w :: ds)) with (d ++ [LF] ++ join [LF] (w :: ds)). rewrite Hx. exists (d ++ [LF] ++ x). now rewrite <- !app_assoc.
Qed.
Lemma pop_clean x v : v <> [] -> ~ In LF v -> pop_lf (x ++ v) = x ++ v.
Proof.
  intros Hv Hn. unfold pop_lf. rewrite rev_app_distr. destruct (rev v) as [|c r] eqn:Hr; [apply (f_equal (@rev _)) in Hr; rewrite rev_involutive in Hr; now subst|].
  cbn [app]. destruct (Ascii.eqb_spec c LF) as [->|_]; [|reflexivity]. destruct Hn. apply in_rev. rewrite Hr. now left.
Qed.
Lemma unspace_In x v : In x (unspace v) -> In x v.
Proof. destruct v as [|c v]; [easy|]. cbn. destruct (Ascii.eqb c SP); [now right|auto]. Qed.
Lemma value_In x l : In x (snd (name_value l)) -> In x l.
Proof.
  induction l as [|c l IH]; [easy|]. cbn [name_value]. destruct (Ascii.eqb c COL); [intros H; right; now apply unspace_In|].
  destruct (name_value l) as [n v]. cbn [snd] in *. intros H. right. auto.
Qed.
Lemma values_clean n block : Forall (fun l : text => ~ In LF l) block -> Forall (fun v : text => ~ In LF v) (values n block).
Proof.
  intros H. apply Forall_forall. intros v Hv. unfold values in Hv. apply in_flat_map in Hv as (l & Hl & Hv). rewrite Forall_forall in H. specialize (H l Hl).
  pose proof (value_In LF l) as K. destruct (name_value l) as [m w]. cbn [snd] in K. destruct (text_eqb m n); [destruct Hv as [<-|[]]; tauto|destruct Hv].
Qed.
Lemma last_In {A} (l : list A) d : l <> [] -> In (last l d) l.
Proof. induction l as [|a l IH]; [easy|]. intros _. destruct l; [now left|]. right. now apply IH. Qed.
Lemma made_regular block : Forall (fun l : text => ~ In LF l) block -> regular block -> made_of block = event_of block.
Proof.
  intros Hc Hr. unfold made_of, bl_dispatch, event_of, summary. cbn [bl_event e_data e_event e_id e_retry]. pose proof (values_clean (tx "data") block Hc) as Hv.
  unfold regular in Hr. destruct (values (tx "data") block) as [|d ds]; [reflexivity|]. destruct Hr as [Hr|[Hh Hl]]; [discriminate|]. cbn [hd] in Hh.
  assert (Hp : pile (d :: ds) = join [LF] (d :: ds)) by (unfold pile; cbn [fold_left pile1]; now apply pile_join).
  rewrite Hp. destruct (join_last (d :: ds)) as (x & Hx); [easy|].
  assert (Hpop : pop_lf (join [LF] (d :: ds)) = join [LF] (d :: ds)).
  { rewrite Hx. apply pop_clean; [exact Hl|]. rewrite Forall_forall in Hv. apply Hv. now apply last_In. }
  rewrite Hpop. destruct (join [LF] (d :: ds)) as [|c j]; [|reflexivity]. symmetry in Hx. apply app_eq_nil in Hx as [_ Hx]. now rewrite Hx in Hl.
Qed.
Lemma blocks_clean (ls : list text) : forall acc : list text, Forall (fun l : text => ~ In LF l) acc -> Forall (fun l : text => ~ In LF l) ls ->
  Forall (Forall (fun l : text => ~ In LF l)) (fst (blocks_from acc ls)).
Proof.
  induction ls as [|l ls IH]; intros acc Ha Hl; cbn [blocks_from]; [constructor|]. inversion_clear Hl as [|? ? H1 H2]. destruct l as [|c l].
  - specialize (IH [] ltac:(constructor) H2). destruct (blocks_from [] ls). cbn [fst] in *. constructor; [exact Ha|exact IH].
  - apply IH; [|exact H2]. apply Forall_app. auto.
Qed.
Lemma somes_ext {A B} (f g : A -> option B) l : Forall (fun a => f a = g a) l -> somes (map f l) = somes (map g l).
Proof. induction 1 as [|a l H _ IH]; [reflexivity|]. cbn. now rewrite H, IH. Qed.
(** The events of a stream are those of its blocks: type, data lines joined by LF, id, retry.
    Missing for the full claim: blocks whose first or last data line is empty. *)
Theorem C43_events_are_those_of_the_blocks_partial : forall s, good s -> Forall regular (fst (blocks (fst (lines s)))) ->
  exists p, sse_parse s sparser0 = POk (somes (map event_of (fst (blocks (fst (lines s)))))) p.
Proof.
  intros s Hs Hr. rewrite (parse_lines s sparser0 Hs). cbn [sp_buf sp_bld sparser0 app]. pose proof (lines_clean s) as Hc. destruct (lines s) as [ls r]. cbn [fst] in *.
  change builder0 with (mkBuilder (summary []) false). rewrite feed_blocks. unfold blocks in *. pose proof (blocks_clean ls [] ltac:(constructor) Hc) as Hb.
  destruct (blocks_from [] ls) as [bs r']. cbn [fst] in *. eexists. f_equal. apply somes_ext. apply Forall_forall. intros b Hi. rewrite Forall_forall in Hr, Hb. apply made_regular; auto.
Qed.
Print Assumptions C43_events_are_those_of_the_blocks_partial.
Definition stream2 : text := tx ": hello" ++ [LF] ++ tx "data: a" ++ [LF] ++ tx "data" ++ [LF] ++ tx "data:b" ++ [LF] ++ tx "id: 1" ++ [LF; LF].
Example ex43 : Forall regular (fst (blocks (fst (lines stream2)))) /\
  map event_of (fst (blocks (fst (lines stream2)))) = [Some (mkEvent (tx "message") (tx "a" ++ [LF; LF] ++ tx "b") (tx "1") None)].
Proof. split; [|vm_compute; reflexivity]. vm_compute. constructor; [|constructor]. right. split; discriminate. Qed.
(** An empty first line of data is lost, and so is an empty last one; a block with one empty
    data line makes no event *)
Theorem C43_empty_data_lines_refuted : exists s1 s2 s3, good s1 /\ good s2 /\ good s3 /\
  (exists e p, sse_parse s1 sparser0 = POk [e] p /\ values (tx "data") (hd [] (fst (blocks (fst (lines s1))))) = [[]; tx "x"] /\ e_data e = tx "x") /\
  (exists e p, sse_parse s2 sparser0 = POk [e] p /\ values (tx "data") (hd [] (fst (blocks (fst (lines s2))))) = [tx "x"; []] /\ e_data e = tx "x") /\
  (exists p, sse_parse s3 sparser0 = POk [] p /\ map event_of (fst (blocks (fst (lines s3)))) = [Some (mkEvent (tx "message") [] [] None)]).
Proof.
  exists (tx "data:" ++ [LF] ++ tx "data: x" ++ [LF; LF]), (tx "data: x" ++ [LF] ++ tx "data:" ++ [LF; LF]), (tx "data:" ++ [LF; LF]).
  split; [vm_compute; reflexivity|]. split; [vm_compute; reflexivity|]. split; [vm_compute; reflexivity|].
  split; [eexists _, _; split; [vm_compute; reflexivity|split; vm_compute; reflexivity]|].
  split; [eexists _, _; split; [vm_compute; reflexivity|split; vm_compute; reflexivity]|].
  eexists. split; vm_compute; reflexivity.
Qed.
Print Assumptions C43_empty_data_lines_refuted.

(** What does happen to them, for all streams: the empty lines of data at the front of a block do not count, and
    neither does an empty last one. *)
Fixpoint fronted (ds : list text) : list text := match ds with [] :: ds' => fronted ds' | _ => ds end.
Definition counted (ds : list text) : list text := match last (fronted ds) [] with [] => removelast (fronted ds) | _ => fronted ds end.
Definition seen_of (block : list text) : option event :=
  match counted (values (tx "data") block), event_of block with
  | [], _ | _, None => None
  | ds, Some e => Some (mkEvent (e_event e) (join [LF] ds) (e_id e) (e_retry e))
  end.
Lemma pile_fronted ds : pile ds = pile (fronted ds).
Proof. unfold pile. induction ds as [|[|c d] ds IH]; [reflexivity|exact IH|reflexivity]. Qed.
Lemma fronted_spec ds : fronted ds = [] \/ exists d ds', fronted ds = d :: ds' /\ d <> [].
Proof. induction ds as [|[|c d] ds IH]; [now left|exact IH|]. right. now exists (c :: d), ds. Qed.
Lemma fronted_In ds d : In d (fronted ds) -> In d ds.
Proof. induction ds as [|[|c d'] ds IH]; cbn [fronted]; auto. intros H. right. auto. Qed.
Lemma join_snoc (ds : list text) : ds <> [] -> join [LF] (ds ++ [[]]) = join [LF] ds ++ [LF].
Proof.
  induction ds as [|d ds IH]; [easy|]. intros _. destruct ds as [|w ds]; [reflexivity|].
  change (join [LF] ((d :: w :: ds) ++ [[]])) with (d ++ [LF] ++ join [LF] ((w :: ds) ++ [[]])). rewrite IH by easy.
  change (join [LF] (d :: w :: ds)) with (d ++ [LF] ++ join [LF] (w :: ds)). now rewrite <- !app_assoc.
Qed.
Lemma pop_snoc x : pop_lf (x ++ [LF]) = x.
Proof. unfold pop_lf. rewrite rev_app_distr. cbn. now rewrite rev_involutive. Qed.
Lemma join_first d (ds : list text) : d <> [] -> join [LF] (d :: ds) <> [].
Proof. intros Hd. destruct ds as [|w ds]; [exact Hd|]. change (d ++ [LF] ++ join [LF] (w :: ds) <> []). destruct d; easy. Qed.
Lemma made_seen block : Forall (fun l : text => ~ In LF l) block -> made_of block = seen_of block.
Proof.
  intros Hc. unfold made_of, bl_dispatch, seen_of, event_of, summary. cbn [bl_event e_data e_event e_id e_retry]. pose proof (values_clean (tx "data") block Hc) as Hv.
  rewrite Forall_forall in Hv. set (vs := values (tx "data") block) in *. assert (Hvs : vs = [] -> fronted vs = []) by now intros ->. rewrite pile_fronted. unfold counted.
  destruct (fronted_spec vs) as [Hf|(d & ds & Hf & Hd)].
  - rewrite Hf. reflexivity.
  - assert (Hin : forall w, In w (d :: ds) -> ~ In LF w) by (intros w Hw; apply Hv, fronted_In; now rewrite Hf). rewrite Hf.
    assert (Hp : pile (d :: ds) = join [LF] (d :: ds)) by (unfold pile; cbn [fold_left]; rewrite (pile_join (pile1 [] d)) by exact Hd; reflexivity). rewrite Hp.
    destruct vs as [|v0 vs']; [now rewrite Hvs in Hf|]. clear Hvs Hv. cbn [e_event e_id e_retry]. pose proof (join_first d ds Hd) as Hj.
    destruct (last (d :: ds) []) as [|c z] eqn:Hl.
    + assert (Hsp : d :: ds = removelast (d :: ds) ++ [[]]) by (rewrite <- Hl; now apply app_removelast_last).
      destruct (removelast (d :: ds)) as [|r rs] eqn:Hr; [cbn in Hsp; injection Hsp as -> _; easy|].
      assert (HJ : join [LF] (d :: ds) = join [LF] (r :: rs) ++ [LF]) by (rewrite <- (join_snoc (r :: rs)) by easy; f_equal; exact Hsp). rewrite HJ, pop_snoc. destruct (join [LF] (r :: rs) ++ [LF]) eqn:Hz; [now apply app_eq_nil in Hz|reflexivity].
    + destruct (join_last (d :: ds)) as (x & Hx); [discriminate|]. rewrite Hl in Hx.
      assert (Hpop : pop_lf (join [LF] (d :: ds)) = join [LF] (d :: ds)) by (rewrite Hx; apply pop_clean; [discriminate|]; apply Hin; rewrite <- Hl; now apply last_In).
      rewrite Hpop. destruct (join [LF] (d :: ds)) eqn:Hz; [now destruct Hj|reflexivity].
Qed.
Theorem C43_which_data_lines_count : forall s, good s ->
  exists p, sse_parse s sparser0 = POk (somes (map seen_of (fst (blocks (fst (lines s)))))) p.
Proof.
  intros s Hs. rewrite (parse_lines s sparser0 Hs). cbn [sp_buf sp_bld sparser0 app]. pose proof (lines_clean s) as Hc. destruct (lines s) as [ls r]. cbn [fst] in *.
  change builder0 with (mkBuilder (summary []) false). rewrite feed_blocks. unfold blocks in *. pose proof (blocks_clean ls [] ltac:(constructor) Hc) as Hb.
  destruct (blocks_from [] ls) as [bs r']. cbn [fst] in *. eexists. f_equal. apply somes_ext. apply Forall_forall. intros b Hi. rewrite Forall_forall in Hb. apply made_seen; auto.
Qed.
Print Assumptions C43_which_data_lines_count.
Definition stream3 : text := tx "data:" ++ [LF] ++ tx "data: a" ++ [LF] ++ tx "data" ++ [LF] ++ tx "data:" ++ [LF; LF] ++ tx "data" ++ [LF; LF].
Example ex43b : values (tx "data") (hd [] (fst (blocks (fst (lines stream3))))) = [[]; tx "a"; []; []] /\
  map seen_of (fst (blocks (fst (lines stream3)))) = [Some (mkEvent (tx "message") (tx "a" ++ [LF]) [] None); None].
Proof. split; vm_compute; reflexivity. Qed.

(** * C42 *)
(** events as a sender writes them *)
Record sent_event := mkSent { se_event : option text; se_data : list text; se_id : option text; se_retry : option text }.
Definition opt_line (n : text) (o : option text) : list text := match o with Some v => [n ++ tx ": " ++ v] | None => [] end.
Definition event_lines (w : sent_event) : list text :=
  opt_line (tx "event") (se_event w) ++ map (fun d => tx "data: " ++ d) (se_data w) ++ opt_line (tx "id") (se_id w) ++ opt_line (tx "retry") (se_retry w).
Definition serialise (eol : text) (ws : list sent_event) : text :=
  concat (map (fun w => concat (map (fun l => l ++ eol) (event_lines w)) ++ eol) ws).
Definition one_line (v : text) : Prop := ~ In LF v /\ ~ In CR v.
Definition opt_all (P : text -> Prop) (o : option text) : Prop := match o with Some v => P v | None => True end.
Definition sendable (w : sent_event) : Prop :=
  opt_all one_line (se_event w) /\ Forall one_line (se_data w) /\ se_data w <> [] /\ hd [] (se_data w) <> [] /\ last (se_data w) [] <> [] /\
  opt_all (fun v => one_line v /\ ~ In NUL v) (se_id w) /\ opt_all (fun v => one_line v /\ dec_u64 v <> None) (se_retry w).
Definition meant (w : sent_event) : event :=
  mkEvent (match se_event w with Some (c :: n) => c :: n | _ => tx "message" end) (join [LF] (se_data w))
    (match se_id w with Some v => v | None => [] end) (match se_retry w with Some v => dec_u64 v | None => None end).

Lemma lines_one eol l s : eol = [LF] \/ eol = crlf -> one_line l -> forall acc,
  lines_from acc (l ++ eol ++ s) = let (ls, r) := lines s in ((acc ++ l) :: ls, r).
Proof.
  intros He [H1 H2]. induction l as [|c l IH]; intros acc.
  - rewrite app_nil_r. destruct He as [-> | ->]; reflexivity.
  - cbn [app lines_from]. destruct (Ascii.eqb_spec c LF) as [->|_]; [destruct H1; now left|]. destruct (Ascii.eqb_spec c CR) as [->|_]; [destruct H2; now left|].
    rewrite IH; [destruct (lines s); now rewrite <- app_assoc|intros H; apply H1; now right|intros H; apply H2; now right].
Qed.
Lemma lines_block eol ls s : eol = [LF] \/ eol = crlf -> Forall one_line ls ->
  lines (concat (map (fun l => l ++ eol) ls) ++ s) = let (ls', r) := lines s in (ls ++ ls', r).
Proof.
  intros He H. induction H as [|l ls Hl _ IH]; [cbn [map concat app]; now destruct (lines s)|]. cbn [map concat]. rewrite <- !app_assoc. unfold lines at 1. rewrite (lines_one eol l _ He Hl).
  rewrite IH. now destruct (lines s).
Qed.
Lemma lines_serialise eol ws : eol = [LF] \/ eol = crlf -> Forall (fun w => Forall one_line (event_lines w)) ws ->
  lines (serialise eol ws) = (flat_map (fun w => event_lines w ++ [[]]) ws, []).
Proof.
  intros He H. induction H as [|w ws Hw _ IH]; [reflexivity|]. unfold serialise in *. cbn [map concat]. rewrite <- app_assoc, (lines_block eol _ _ He Hw).
  pose proof (lines_one eol [] (concat (map (fun w => concat (map (fun l => l ++ eol) (event_lines w)) ++ eol) ws)) He) as K.
  unfold lines at 1. cbn [app] in K. rewrite K by (split; easy). rewrite IH. cbn [flat_map]. now rewrite <- app_assoc.
Qed.
Lemma blocks_one b ls : Forall (fun l => l <> []) b -> forall acc, blocks_from acc (b ++ [] :: ls) = let (bs, r) := blocks ls in ((acc ++ b) :: bs, r).
Proof.
  induction 1 as [|l b Hl _ IH]; intros acc; cbn [app blocks_from]; [now rewrite app_nil_r|]. destruct l as [|c l]; [easy|]. rewrite IH. destruct (blocks ls). now rewrite <- app_assoc.
Qed.
Lemma blocks_all (f : sent_event -> list text) ws : Forall (fun w => Forall (fun l => l <> []) (f w)) ws -> blocks (flat_map (fun w => f w ++ [[]]) ws) = (map f ws, []).
Proof.
  induction 1 as [|w ws Hw _ IH]; [reflexivity|]. cbn [flat_map map]. rewrite <- app_assoc. unfold blocks at 1. cbn [app]. rewrite (blocks_one _ _ Hw), IH. reflexivity.
Qed.
Lemma one_line_app a b : one_line a -> one_line b -> one_line (a ++ b).
Proof. intros [A1 A2] [B1 B2]. split; rewrite in_app_iff; tauto. Qed.
Lemma opt_line_ok n o : one_line n -> n <> [] -> opt_all one_line o -> Forall one_line (opt_line n o) /\ Forall (fun l => l <> []) (opt_line n o).
Proof.
  intros Hn Hne Ho. destruct o as [v|]; [|split; constructor]. cbn [opt_all] in Ho. cbn [opt_line]. split; (constructor; [|constructor]).
  - apply one_line_app; [exact Hn|]. apply one_line_app; [|exact Ho]. split; vm_compute; intuition discriminate.
  - destruct n; easy.
Qed.
Lemma event_lines_ok w : sendable w -> Forall one_line (event_lines w) /\ Forall (fun l => l <> []) (event_lines w).
Proof.
  intros (H1 & H2 & _ & _ & _ & H3 & H4). unfold event_lines. rewrite !Forall_app.
  assert (Hd : Forall one_line (map (fun d => tx "data: " ++ d) (se_data w)) /\ Forall (fun l => l <> []) (map (fun d => tx "data: " ++ d) (se_data w))).
  { clear -H2. induction H2 as [|d ds Hd _ [I1 I2]]; cbn [map]; [split; constructor|]. split; constructor; auto; [|easy].
    apply one_line_app; [split; vm_compute; intuition discriminate|exact Hd]. }
  destruct (opt_line_ok (tx "event") (se_event w)) as [E1 E2]; [split; vm_compute; intuition discriminate|easy|exact H1|].
  destruct (opt_line_ok (tx "id") (se_id w)) as [E3 E4]; [split; vm_compute; intuition discriminate|easy|destruct (se_id w); [apply H3|easy]|].
  destruct (opt_line_ok (tx "retry") (se_retry w)) as [E5 E6]; [split; vm_compute; intuition discriminate|easy|destruct (se_retry w); [apply H4|easy]|].
  tauto.
Qed.
Lemma values_data n ds : values n (map (fun d => tx "data: " ++ d) ds) = if text_eqb (tx "data") n then ds else [].
Proof.
  induction ds as [|d ds IH]; [now destruct (text_eqb (tx "data") n)|]. unfold values in *. cbn [map flat_map]. rewrite IH.
  change (name_value (tx "data: " ++ d)) with (tx "data", d). cbn match. now destruct (text_eqb (tx "data") n).
Qed.
Lemma name_value_of n v : ~ In COL n -> name_value (n ++ tx ": " ++ v) = (n, v).
Proof.
  intros H. induction n as [|c n IH]; [reflexivity|]. cbn [app name_value]. destruct (Ascii.eqb_spec c COL) as [->|_]; [destruct H; now left|].
  rewrite IH; [reflexivity|]. intros Hi. apply H. now right.
Qed.
Lemma values_opt n m o : ~ In COL m -> values n (opt_line m o) = if text_eqb m n then match o with Some v => [v] | None => [] end else [].
Proof.
  intros Hm. destruct o as [v|]; [|now destruct (text_eqb m n)]. unfold values, opt_line. cbn [flat_map]. rewrite (name_value_of m v Hm). rewrite app_nil_r. reflexivity.
Qed.
Lemma event_of_sent w : sendable w -> regular (event_lines w) /\ event_of (event_lines w) = Some (meant w).
Proof.
  intros (H1 & H2 & H3 & H4 & H5 & H6 & H7). unfold regular, event_of, event_lines. rewrite !values_app, !values_data.
  rewrite !values_opt by (vm_compute; intuition discriminate).
  repeat match goal with |- context [text_eqb (tx ?a) (tx ?b)] => let v := eval vm_compute in (text_eqb (tx a) (tx b)) in change (text_eqb (tx a) (tx b)) with v end.
  cbn match. rewrite !app_nil_r. cbn [app]. split; [right; auto|]. destruct (se_data w) as [|d ds] eqn:Hd; [easy|]. f_equal. unfold meant. rewrite Hd. f_equal.
  - destruct (se_event w) as [[|c n]|]; reflexivity.
  - destruct (se_id w) as [v|]; [|reflexivity]. destruct H6 as [_ H6]. cbn [filter]. unfold no_nul. destruct (existsb (Ascii.eqb NUL) v) eqn:He; [|reflexivity].
    apply existsb_exists in He as (x & Hx & He). apply Ascii.eqb_eq in He. now subst.
  - destruct (se_retry w) as [v|]; [|reflexivity]. destruct H7 as [_ H7]. cbn [flat_map]. destruct (dec_u64 v); [reflexivity|easy].
Qed.
(** What a sender writes with LF or CR LF line endings comes out as it was meant.
    Missing for the full claim: CR line endings, see the refutation, and data beginning or ending
    with an empty line, see C43. *)
Theorem C42_serialised_events_are_parsed_back_partial : forall eol ws,
  eol = [LF] \/ eol = crlf -> Forall sendable ws -> good (serialise eol ws) ->
  exists p, sse_parse (serialise eol ws) sparser0 = POk (map meant ws) p.
Proof.
  intros eol ws He Hw Hg.
  assert (Hl : lines (serialise eol ws) = (flat_map (fun w => event_lines w ++ [[]]) ws, [])).
  { apply lines_serialise; [exact He|]. revert Hw. apply Forall_impl. intros w Hs. now apply event_lines_ok. }
  assert (Hb : blocks (flat_map (fun w => event_lines w ++ [[]]) ws) = (map event_lines ws, [])).
  { apply blocks_all. revert Hw. apply Forall_impl. intros w Hs. now apply event_lines_ok. }
  destruct (C43_events_are_those_of_the_blocks_partial (serialise eol ws) Hg) as (p & Hp).
  - rewrite Hl. cbn [fst]. rewrite Hb. cbn [fst]. apply Forall_forall. intros b Hi. apply in_map_iff in Hi as (w & <- & Hi). rewrite Forall_forall in Hw. apply event_of_sent. auto.
  - exists p. rewrite Hp, Hl. cbn [fst]. rewrite Hb. cbn [fst]. f_equal. clear -Hw. induction Hw as [|w ws Hw _ IH]; [reflexivity|]. cbn [map].
    destruct (event_of_sent w Hw) as [_ ->]. cbn [somes]. now rewrite IH.
Qed.
Print Assumptions C42_serialised_events_are_parsed_back_partial.
Definition sent1 : list sent_event := [mkSent (Some (tx "tick")) [tx "a"; []; tx " b:c"] (Some (tx "7")) (Some (tx "0150")); mkSent None [tx "[DONE]"] None None].
Example ex42 : Forall sendable sent1 /\ good (serialise crlf sent1) /\
  map meant sent1 = [mkEvent (tx "tick") (tx "a" ++ [LF; LF] ++ tx " b:c") (tx "7") (Some 150%N); mkEvent (tx "message") (tx "[DONE]") [] None].
Proof.
  split; [|split; vm_compute; reflexivity].
  assert (Hone : forall v, forallb (fun c => negb (Ascii.eqb c LF) && negb (Ascii.eqb c CR)) v = true -> one_line v).
  { intros v Hv. rewrite forallb_forall in Hv. split; intros Hi; apply Hv in Hi; vm_compute in Hi; discriminate. }
  constructor; [|constructor; [|constructor]]; (split; [first [exact Logic.I|apply Hone; reflexivity]|]); (split; [repeat (constructor; [apply Hone; reflexivity|]); constructor|]);
    (split; [discriminate|]); (split; [discriminate|]); (split; [discriminate|]); (split; [first [exact Logic.I|split; [apply Hone; reflexivity|vm_compute; intuition discriminate]]|first [exact Logic.I|split; [apply Hone; reflexivity|vm_compute; discriminate]]]).
Qed.
(** With CR line endings the last event of a stream is never seen *)
Theorem C42_cr_line_endings_refuted : exists w, sendable w /\ good (serialise [CR] [w]) /\ exists p, sse_parse (serialise [CR] [w]) sparser0 = POk [] p.
Proof.
  exists (mkSent None [tx "x"] None None). split; [|split; [vm_compute; reflexivity|eexists; vm_compute; reflexivity]].
  split; [exact Logic.I|]. split; [constructor; [split; vm_compute; intuition discriminate|constructor]|]. split; [discriminate|]. split; [discriminate|]. split; [discriminate|].
  split; exact Logic.I.
Qed.
Print Assumptions C42_cr_line_endings_refuted.

(** * C46 *)
(** chunks given to the parser of a store action; [None] is a failure of the action *)
Fixpoint sb_feed_all (p : sbparser) (chunks : list text) : option sbparser :=
  match chunks with [] => Some p | c :: cs => match sb_feed c p with Some p' => sb_feed_all p' cs | None => None end end.
Lemma push_all es : forall l u t pre, es = pre ++ [u; t] -> fold_left (fun l e => push_event e l) es l = (Some t, Some u).
Proof.
  intros l u t pre ->. rewrite fold_left_app. cbn [fold_left]. reflexivity.
Qed.
Lemma sb_feed_all_spec chunks : forall p, Forall good chunks -> sb_complete p = false ->
  exists es sp, feed_all (sb_parser p) chunks = Some (es, sp) /\
    sb_feed_all p chunks = Some (mkSb (sb_fields p) sp (fold_left (fun l e => push_event e l) es (sb_last p)) (sb_extracted p) false).
Proof.
  induction chunks as [|c cs IH]; intros p Hg Hc; cbn [feed_all sb_feed_all].
  - eexists _, _. split; [reflexivity|]. destruct p. cbn in *. now subst.
  - inversion_clear Hg as [|? ? H1 H2]. unfold sb_feed. rewrite Hc.
    destruct (two_chunks c [] (sb_parser p) H1 eq_refl) as (e1 & p1 & _ & _ & -> & _).
    destruct (IH (mkSb (sb_fields p) p1 (fold_left (fun l e => push_event e l) e1 (sb_last p)) (sb_extracted p) false) H2 eq_refl) as (es & sp & I1 & I2).
    cbn [sb_parser sb_fields sb_last sb_extracted] in *. rewrite I1, I2. eexists _, _. split; [reflexivity|]. now rewrite fold_left_app.
Qed.
(** The fields are those of the JSON document in the event before the last one, whatever the
    chunks; the store action fails if that event is not JSON. *)
Theorem C46_fields_come_from_the_penultimate_event : forall E fields chunks pre u t sp,
  Forall good chunks -> feed_all sparser0 chunks = Some (pre ++ [u; t], sp) ->
  exists p, sb_feed_all (sb_new fields) chunks = Some p /\
  match o_json E (e_data u) with
  | None => sb_finalize E p = None
  | Some j => exists p', sb_finalize E p = Some p' /\ forall f, tget f (sb_extracted p') = if in_dec text_eq_dec f fields then option_map (sse_field_value E) (o_pointer E j f) else None
  end.
Proof.
  intros E fields chunks pre u t sp Hg Hf. destruct (sb_feed_all_spec chunks (sb_new fields) Hg eq_refl) as (es & sp' & H1 & H2).
  cbn [sb_new sb_parser sb_fields sb_last sb_extracted] in *. rewrite Hf in H1. injection H1 as <- <-. rewrite H2. eexists. split; [reflexivity|].
  unfold sb_finalize. cbn [sb_last]. rewrite (push_all _ _ u t pre eq_refl). cbn [snd]. destruct (o_json E (e_data u)) as [j|]; [|reflexivity]. eexists. split; [reflexivity|].
  cbn [sb_extracted sb_fields]. intros f.
  assert (K : forall fs acc, (forall g, In g fs -> In g fields) ->
    tget f (fold_left (fun acc f => match o_pointer E j f with Some v => tset f (sse_field_value E v) acc | None => acc end) fs acc) =
    if in_dec text_eq_dec f fs then match o_pointer E j f with Some v => Some (sse_field_value E v) | None => tget f acc end else tget f acc).
  { induction fs as [|g fs IH]; intros acc Hi; [reflexivity|]. cbn [fold_left]. rewrite IH by (intros; apply Hi; now right).
    assert (Hg2 : tget f (match o_pointer E j g with Some v => tset g (sse_field_value E v) acc | None => acc end) =
      if text_eq_dec g f then match o_pointer E j f with Some v => Some (sse_field_value E v) | None => tget f acc end else tget f acc).
    { destruct (text_eq_dec g f) as [->|Hne].
      - destruct (o_pointer E j f); [apply (aget_aset_same text_eqb text_eqb_eq)|reflexivity].
      - destruct (o_pointer E j g); [apply (aget_aset_other text_eqb text_eqb_eq); congruence|reflexivity]. }
    rewrite Hg2. destruct (in_dec text_eq_dec f fs) as [Hin|Hnin]; destruct (in_dec text_eq_dec f (g :: fs)) as [Hin'|Hnin']; destruct (text_eq_dec g f) as [->|Hne]; try reflexivity.
    - destruct (o_pointer E j f); reflexivity.
    - destruct Hnin'. now right.
    - destruct Hnin'. now right.
    - destruct Hin' as [->|Hin']; [now destruct Hne|now destruct Hnin].
    - destruct Hnin'. now left. }
  rewrite K by auto. destruct (in_dec text_eq_dec f fields); [|reflexivity]. now destruct (o_pointer E j f).
Qed.
Print Assumptions C46_fields_come_from_the_penultimate_event.
(** the token usage strategy sees the same event *)
Definition st_feed_all (s : strategy) (chunks : list text) : strategy := fold_left (fun s c => st_feed c s) chunks s.
Theorem C46_usage_comes_from_the_penultimate_event : forall E chunks pre u t sp f,
  Forall good chunks -> feed_all sparser0 chunks = Some (pre ++ [u; t], sp) ->
  st_extract E f (st_feed_all (StSse sparser0 (None, None)) chunks) = match o_json E (e_data u) with Some j => o_pointer E j f | None => None end.
Proof.
  intros E chunks pre u t sp f Hg Hf.
  assert (K : forall cs p l es sp, Forall good cs -> feed_all p cs = Some (es, sp) -> st_feed_all (StSse p l) cs = StSse sp (fold_left (fun l e => push_event e l) es l)).
  { induction cs as [|c cs IH]; intros p l es sp0 H1 H2; cbn [feed_all] in H2; [injection H2 as <- <-; reflexivity|]. inversion_clear H1 as [|? ? Hc Hcs].
    unfold st_feed_all. cbn [fold_left st_feed]. destruct (sse_parse c p) as [e1 p1| |]; try discriminate. destruct (feed_all p1 cs) as [[e2 p2]|] eqn:Hf1; [|discriminate].
    injection H2 as <- <-. rewrite fold_left_app. now apply IH. }
  rewrite (K chunks sparser0 (None, None) _ _ Hg Hf). cbn [st_extract]. now rewrite (push_all _ _ u t pre eq_refl).
Qed.
Print Assumptions C46_usage_comes_from_the_penultimate_event.
Example ex46 : exists sp, feed_all sparser0 [tx "data: 1" ++ [LF]; [LF] ++ tx "data: 2" ++ [LF; LF]; tx "data: [DONE]" ++ [LF; LF]] =
  Some ([mkEvent (tx "message") (tx "1") [] None] ++ [mkEvent (tx "message") (tx "2") [] None; mkEvent (tx "message") (tx "[DONE]") [] None], sp).
Proof. eexists. vm_compute. reflexivity. Qed.
