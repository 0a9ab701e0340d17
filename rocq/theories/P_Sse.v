(** What the event-stream parser does, in terms of lines and blocks. *)
From Coq Require Import String Ascii List NArith Bool Lia Arith.
From Verif Require Import Base Sse.
Import ListNotations.
Open Scope list_scope.

(** * Specification: lines and blocks of an event stream (WHATWG HTML, 9.2.5 and 9.2.6) *)
(** A line ends at LF, CR LF or CR; a CR at the very end may be half of a CR LF.  [acc] is the
    line read so far.  The second component is the unfinished rest. *)
Fixpoint lines_from (acc s : text) : list text * text :=
  match s with
  | [] => ([], acc)
  | c :: s' =>
      if Ascii.eqb c LF then let (ls, r) := lines_from [] s' in (acc :: ls, r)
      else if Ascii.eqb c CR then
        match s' with
        | [] => ([], acc ++ [c])
        | d :: s'' => if Ascii.eqb d LF then let (ls, r) := lines_from [] s'' in (acc :: ls, r)
                      else let (ls, r) := lines_from [] s' in (acc :: ls, r)
        end
      else lines_from (acc ++ [c]) s'
  end.
Definition lines (s : text) : list text * text := lines_from [] s.
(** name and value of a line: what stands before and after the first colon, one space after
    the colon being dropped; without colon the value is empty *)
Definition unspace (v : text) : text := match v with c :: r => if Ascii.eqb c SP then r else v | [] => [] end.
Fixpoint name_value (l : text) : text * text :=
  match l with
  | [] => ([], [])
  | c :: l' => if Ascii.eqb c COL then ([], unspace l') else let (n, v) := name_value l' in (c :: n, v)
  end.
(** the values of the field [n] in a block of lines, in order *)
Definition values (n : text) (block : list text) : list text :=
  flat_map (fun l => let (m, v) := name_value l in if text_eqb m n then [v] else []) block.
Definition no_nul (v : text) : bool := negb (existsb (Ascii.eqb NUL) v).
(** the event a block of lines stands for; none without data *)
Definition event_of (block : list text) : option event :=
  match values (tx "data") block with
  | [] => None
  | ds => Some (mkEvent (match last (values (tx "event") block) [] with [] => tx "message" | n => n end)
                  (join [LF] ds)
                  (last (filter no_nul (values (tx "id") block)) [])
                  (last (map Some (flat_map (fun v => match dec_u64 v with Some n => [n] | None => [] end) (values (tx "retry") block))) None))
  end.
(** blocks: the lines up to an empty one; the second component is the unfinished block *)
Fixpoint blocks_from (acc : list text) (ls : list text) : list (list text) * list text :=
  match ls with
  | [] => ([], acc)
  | [] :: ls' => let (bs, r) := blocks_from [] ls' in (acc :: bs, r)
  | l :: ls' => blocks_from (acc ++ [l]) ls'
  end.
Definition blocks (ls : list text) : list (list text) * list text := blocks_from [] ls.

(** * One line *)
(** the first line of [s] and what follows it *)
Fixpoint cut (s : text) : option (text * text) :=
  match s with
  | [] => None
  | c :: s' =>
      if Ascii.eqb c LF then Some ([], s')
      else if Ascii.eqb c CR then
        match s' with [] => None | d :: s'' => Some ([], if Ascii.eqb d LF then s'' else s') end
      else match cut s' with Some (l, r) => Some (c :: l, r) | None => None end
  end.
Fixpoint colon_split (l : text) : text * option text :=
  match l with
  | [] => ([], None)
  | c :: l' => if Ascii.eqb c COL then ([], Some (unspace l')) else let (n, v) := colon_split l' in (c :: n, v)
  end.
Definition classify (l : text) : rawline :=
  match l with
  | [] => REmpty
  | c :: l' => if Ascii.eqb c COL then RComment l' else let (n, v) := colon_split l in RField n v
  end.

Lemma any_eol c : is_any_char c = false -> (c = LF \/ c = CR).
Proof. unfold is_any_char. intros H. apply negb_false_iff, orb_true_iff in H as [H|H]; apply Ascii.eqb_eq in H; auto. Qed.
Lemma any_not c : is_any_char c = true -> Ascii.eqb c LF = false /\ Ascii.eqb c CR = false.
Proof. unfold is_any_char. intros H. apply negb_true_iff, orb_false_iff in H. exact H. Qed.
Lemma name_any c : is_name_char c = true -> is_any_char c = true /\ Ascii.eqb c COL = false.
Proof. unfold is_name_char. intros H. apply andb_true_iff in H as [H1 H2]. apply negb_true_iff in H2. auto. Qed.

(** the rest of a line *)
Lemma rest_of_line {A} (k : text -> A) s :
  nbind (take_while is_any_char s) (fun c s2 => nbind (end_of_line s2) (fun _ s3 => NOk s3 (k c))) =
  match cut s with Some (l, r) => NOk r (k l) | None => NIncomplete end.
Proof.
  revert k. induction s as [|c s IH]; intros k; [reflexivity|]. cbn [cut].
  unfold take_while in *. cbn [span]. destruct (is_any_char c) eqn:Hc.
  - destruct (any_not c Hc) as [-> ->]. specialize (IH (fun t => k (c :: t))). destruct (span is_any_char s) as [a [|d b]].
    + cbn in *. destruct (cut s) as [[l r]|]; [discriminate|reflexivity].
    + cbn [nbind] in *. rewrite IH. now destruct (cut s) as [[l r]|].
  - cbn [nbind]. destruct (any_eol c Hc) as [-> | ->].
    + reflexivity.
    + cbn [end_of_line]. change (Ascii.eqb CR CR) with true. change (Ascii.eqb CR LF) with false. cbn match. destruct s as [|d s]; [reflexivity|]. cbn [nbind]. destruct (Ascii.eqb d LF); reflexivity.
Qed.
Lemma value_rest {A} (k : option text -> A) s1 :
  nbind (nbind (nopt (take_one (Ascii.eqb SP) s1) s1) (fun _ s2 => take_while is_any_char s2)) (fun v s2 => nbind (end_of_line s2) (fun _ s3 => NOk s3 (k (Some v)))) =
  match s1 with [] => NIncomplete | _ => match cut s1 with Some (l, r) => NOk r (k (Some (unspace l))) | None => NIncomplete end end.
Proof.
  destruct s1 as [|c s]; [reflexivity|]. cbn [take_one nopt nbind]. rewrite Ascii.eqb_sym. destruct (Ascii.eqb c SP) eqn:Hc.
  - apply Ascii.eqb_eq in Hc. subst c. cbn [cut]. change (Ascii.eqb SP LF) with false. change (Ascii.eqb SP CR) with false. cbn match.
    destruct s as [|d s]; [reflexivity|]. cbn [nbind nopt].
    pose proof (rest_of_line (fun v => k (Some v)) (d :: s)) as H.
    destruct (take_while is_any_char (d :: s)) as [r a| |]; cbn [nbind] in *; rewrite H; destruct (cut (d :: s)) as [[l r']|]; reflexivity.
  - cbn [nopt nbind]. pose proof (rest_of_line (fun v => k (Some v)) (c :: s)) as H.
    destruct (take_while is_any_char (c :: s)) as [r a| |]; cbn [nbind] in *; rewrite H; destruct (cut (c :: s)) as [[l r']|] eqn:Hcut; try reflexivity.
    all: do 3 f_equal; cbn [cut] in Hcut; destruct (Ascii.eqb c LF); [injection Hcut as <- <-; reflexivity|];
      destruct (Ascii.eqb c CR); [destruct s; [discriminate|injection Hcut as <- <-; reflexivity]|];
      destruct (cut s) as [[l0 r0]|]; [injection Hcut as <- <-; cbn; now rewrite Hc|discriminate].
Qed.
Lemma field_line (k : text -> text) s :
  s <> [] ->
  match span is_name_char s with
  | (_, []) => @NIncomplete rawline
  | (a, r) => nbind (nopt (p_value r) r) (fun val s2 => nbind (end_of_line s2) (fun _ s3 => NOk s3 (RField (k a) val)))
  end =
  match cut s with Some (l, r) => NOk r (let (n, v) := colon_split l in RField (k n) v) | None => NIncomplete end.
Proof.
  revert k. induction s as [|c s IH]; intros k Hs; [easy|]. cbn [span cut]. destruct (is_name_char c) eqn:Hc.
  - destruct (name_any c Hc) as [H1 H2]. destruct (any_not c H1) as [-> ->]. destruct s as [|d s]; [reflexivity|].
    specialize (IH (fun t => k (c :: t))). destruct (span is_name_char (d :: s)) as [a [|e b]].
    + assert (Hne : d :: s <> []) by easy. specialize (IH Hne). destruct (cut (d :: s)) as [[l r]|]; [discriminate|reflexivity].
    + rewrite IH by easy. destruct (cut (d :: s)) as [[l r]|]; [|reflexivity]. cbn [colon_split]. rewrite H2. now destruct (colon_split l).
  - destruct (Ascii.eqb c COL) eqn:Hcol.
    + apply Ascii.eqb_eq in Hcol. subst c. change (Ascii.eqb COL LF) with false. change (Ascii.eqb COL CR) with false. cbn match.
      unfold p_value. cbn [take_one]. change (Ascii.eqb COL COL) with true. cbn match. destruct s as [|d s]; [reflexivity|]. cbn [nbind].
      pose proof (value_rest (fun v => RField (k []) v) (d :: s)) as H.
      destruct (nbind (nopt (take_one (Ascii.eqb SP) (d :: s)) (d :: s)) (fun _ s2 => take_while is_any_char s2)) as [r a| |]; cbn [nbind nopt] in *;
        try (rewrite H; destruct (cut (d :: s)) as [[l r']|]; reflexivity).
      destruct (cut (d :: s)) as [[l r']|]; discriminate.
    + assert (Ha : is_any_char c = false) by (unfold is_name_char in Hc; rewrite Hcol in Hc; now rewrite andb_true_r in Hc).
      unfold p_value. cbn [take_one]. rewrite Ascii.eqb_sym, Hcol. cbn [nbind nopt].
      destruct (any_eol c Ha) as [-> | ->]; [reflexivity|]. change (Ascii.eqb CR LF) with false. cbn [end_of_line]. change (Ascii.eqb CR CR) with true. cbn match.
      destruct s as [|d s]; [reflexivity|]. destruct (Ascii.eqb d LF); reflexivity.
Qed.
(** the line parser never fails: it finds the first line or wants more *)
Lemma line_cut s : p_line s = match cut s with Some (l, r) => NOk r (classify l) | None => NIncomplete end.
Proof.
  destruct s as [|c s]; [reflexivity|]. unfold p_line, p_comment. cbn [take_one]. rewrite Ascii.eqb_sym. destruct (Ascii.eqb c COL) eqn:Hcol.
  - apply Ascii.eqb_eq in Hcol. subst c. destruct s as [|d s]; [reflexivity|]. cbn [nbind]. rewrite (rest_of_line RComment).
    cbn [cut]. change (Ascii.eqb COL LF) with false. change (Ascii.eqb COL CR) with false. cbn match.
    destruct (if Ascii.eqb d LF then _ else _) as [[l r]|]; reflexivity.
  - cbn [nbind nalt]. unfold p_field, take_while1. destruct (is_name_char c) eqn:Hn.
    + pose proof (field_line (fun t => t) (c :: s) ltac:(easy)) as H. cbn [span] in *. rewrite Hn in *. destruct (span is_name_char s) as [a [|d b]].
      * cbn [nbind nalt]. rewrite H. destruct (cut (c :: s)) as [[l r]|]; [discriminate|reflexivity].
      * cbn [nbind]. rewrite H. destruct (cut (c :: s)) as [[l r]|] eqn:Hcut; [|reflexivity]. cbn [nalt]. f_equal.
        assert (Hl : exists l', l = c :: l').
        { destruct (name_any c Hn) as [H1 _]. destruct (any_not c H1) as [E1 E2]. cbn [cut] in Hcut. rewrite E1, E2 in Hcut.
          destruct (cut s) as [[l0 r0]|]; [|discriminate]. injection Hcut as <- <-. eauto. }
        destruct Hl as (l' & ->). cbn [classify]. rewrite Hcol. now destruct (colon_split (c :: l')).
    + cbn [span]. rewrite Hn. cbn [nbind nalt]. assert (Ha : is_any_char c = false) by (unfold is_name_char in Hn; rewrite Hcol in Hn; now rewrite andb_true_r in Hn).
      unfold p_empty. cbn [cut]. destruct (any_eol c Ha) as [-> | ->]; [reflexivity|]. change (Ascii.eqb CR LF) with false. cbn [end_of_line].
      change (Ascii.eqb CR CR) with true. cbn match. destruct s as [|d s]; [reflexivity|]. cbn [nbind]. destruct (Ascii.eqb d LF); reflexivity.
Qed.

(** * All lines *)
Lemma lines_cut s : forall acc, lines_from acc s = match cut s with
  | None => ([], acc ++ s)
  | Some (l, r) => let (ls, r') := lines r in ((acc ++ l) :: ls, r')
  end.
Proof.
  induction s as [|c s IH]; intros acc; [cbn; now rewrite app_nil_r|]. cbn [lines_from cut].
  destruct (Ascii.eqb c LF); [now rewrite app_nil_r|]. destruct (Ascii.eqb c CR) eqn:Hc.
  - destruct s as [|d s]; [reflexivity|]. rewrite app_nil_r. now destruct (Ascii.eqb d LF).
  - rewrite IH. destruct (cut s) as [[l r]|]; [|now rewrite <- app_assoc]. unfold lines. destruct (lines_from [] r). now rewrite <- app_assoc.
Qed.
Lemma cut_length s : forall l r, cut s = Some (l, r) -> length r < length s.
Proof.
  induction s as [|c s IH]; intros l r; cbn [cut]; [discriminate|]. destruct (Ascii.eqb c LF); [intros [= <- <-]; cbn; lia|].
  destruct (Ascii.eqb c CR).
  - destruct s as [|d s]; [discriminate|]. intros [= <- <-]. destruct (Ascii.eqb d LF); cbn; lia.
  - destruct (cut s) as [[l' r']|]; [|discriminate]. intros [= <- <-]. specialize (IH _ _ eq_refl). cbn. lia.
Qed.
Lemma cut_app s t : forall l r, cut s = Some (l, r) -> cut (s ++ t) = Some (l, r ++ t).
Proof.
  induction s as [|c s IH]; intros l r; cbn [cut app]; [discriminate|]. destruct (Ascii.eqb c LF); [intros [= <- <-]; reflexivity|].
  destruct (Ascii.eqb c CR).
  - destruct s as [|d s]; [discriminate|]. intros [= <- <-]. cbn [app]. now destruct (Ascii.eqb d LF).
  - destruct (cut s) as [[l' r']|]; [|discriminate]. intros [= <- <-]. now rewrite (IH _ _ eq_refl).
Qed.
Lemma lines_app s t : lines (s ++ t) = let (l1, r1) := lines s in let (l2, r2) := lines (r1 ++ t) in (l1 ++ l2, r2).
Proof.
  remember (length s) as n eqn:Hn. revert s Hn. induction n as [n IH] using lt_wf_ind. intros s Hn.
  unfold lines at 1 2. rewrite !lines_cut. destruct (cut s) as [[l r]|] eqn:Hc.
  - rewrite (cut_app _ t _ _ Hc). pose proof (cut_length _ _ _ Hc) as Hl. rewrite (IH (length r)) by (lia || reflexivity).
    destruct (lines r) as [l1 r1]. now destruct (lines (r1 ++ t)).
  - cbn [app]. unfold lines. rewrite lines_cut. destruct (cut (s ++ t)) as [[l r]|]; [unfold lines; now destruct (lines_from [] r)|reflexivity].
Qed.
(** nothing that is kept contains a whole line *)
Lemma lines_rest s : cut (snd (lines s)) = None.
Proof.
  remember (length s) as n eqn:Hn. revert s Hn. induction n as [n IH] using lt_wf_ind. intros s Hn.
  unfold lines. rewrite lines_cut. destruct (cut s) as [[l r]|] eqn:Hc; [|exact Hc].
  pose proof (cut_length _ _ _ Hc) as Hl. specialize (IH (length r) ltac:(lia) r eq_refl). now destruct (lines r).
Qed.
Lemma cut_None s : cut s = None <-> ~ In LF s /\ forall a b, s = a ++ CR :: b -> b = [].
Proof.
  induction s as [|c s IH]; cbn [cut]; [split; [intros _; split; [easy|intros [|? ?] ?; discriminate]|reflexivity]|].
  destruct (Ascii.eqb_spec c LF) as [->|Hl]; [split; [discriminate|intros [H _]; destruct H; now left]|].
  destruct (Ascii.eqb_spec c CR) as [->|Hr].
  - destruct s as [|d s].
    + split; [|reflexivity]. intros _. split; [intros [H|[]]; easy|]. intros [|x a] b [= H1]; [now rewrite <- H1|]. destruct a; discriminate.
    + split; [discriminate|]. intros [_ H]. now specialize (H [] (d :: s) eq_refl).
  - assert (K : cut s = None <-> ~ In LF (c :: s) /\ forall a b, c :: s = a ++ CR :: b -> b = []).
    { rewrite IH. split; intros [H1 H2]; split.
      - intros [H|H]; [now destruct Hl|now apply H1].
      - intros [|x a] b H; [injection H as H _; now destruct Hr|]. injection H as _ H. eauto.
      - intros H. apply H1. now right.
      - intros a b H. apply (H2 (c :: a)). now rewrite H. }
    rewrite <- K. destruct (cut s) as [[l r]|]; split; (discriminate || reflexivity || easy).
Qed.
Lemma cut_clean s : forall l r, cut s = Some (l, r) -> ~ In LF l.
Proof.
  induction s as [|c s IH]; intros l r; cbn [cut]; [discriminate|]. destruct (Ascii.eqb_spec c LF) as [->|Hl]; [intros [= <- <-]; easy|].
  destruct (Ascii.eqb c CR).
  - destruct s as [|d s]; [discriminate|]. intros [= <- <-]. easy.
  - destruct (cut s) as [[l' r']|]; [|discriminate]. intros [= <- <-]. intros [H|H]; [easy|]. now apply (IH _ _ eq_refl).
Qed.
Lemma lines_clean s : Forall (fun l => ~ In LF l) (fst (lines s)).
Proof.
  remember (length s) as n eqn:Hn. revert s Hn. induction n as [n IH] using lt_wf_ind. intros s Hn.
  unfold lines. rewrite lines_cut. destruct (cut s) as [[l r]|] eqn:Hc; [|constructor].
  pose proof (cut_length _ _ _ Hc) as Hl. specialize (IH (length r) ltac:(lia) r eq_refl). destruct (lines r) as [ls r']. cbn [fst app]. constructor; [|exact IH].
  eapply cut_clean; eauto.
Qed.

(** * The parser as a function of lines *)
Fixpoint feed_lines (b : builder) (ls : list text) : list event * builder :=
  match ls with
  | [] => ([], b)
  | l :: ls' =>
      let b1 := bl_add (classify l) b in
      if bl_complete b1 then
        let (es, b2) := feed_lines builder0 ls' in ((match bl_dispatch b1 with Some e => [e] | None => [] end) ++ es, b2)
      else feed_lines b1 ls'
  end.
Lemma feed_app ls1 : forall b ls2, feed_lines b (ls1 ++ ls2) =
  let (e1, b1) := feed_lines b ls1 in let (e2, b2) := feed_lines b1 ls2 in (e1 ++ e2, b2).
Proof.
  induction ls1 as [|l ls1 IH]; intros b ls2; cbn [app feed_lines]; [now destruct (feed_lines b ls2)|].
  destruct (bl_complete (bl_add (classify l) b)); [|apply IH].
  rewrite IH. destruct (feed_lines builder0 ls1) as [e1 b1]. destruct (feed_lines b1 ls2) as [e2 b2]. now rewrite app_assoc.
Qed.
Lemma loop_lines fuel : forall p acc, length (sp_buf p) < fuel ->
  parse_loop fuel p acc = let (ls, r) := lines (sp_buf p) in let (es, b) := feed_lines (sp_bld p) ls in POk (acc ++ es) (mkSparser r b).
Proof.
  induction fuel as [|k IH]; intros p acc Hf; [lia|]. cbn [parse_loop]. rewrite line_cut. unfold lines. rewrite lines_cut.
  destruct (cut (sp_buf p)) as [[l r]|] eqn:Hc.
  - pose proof (cut_length _ _ _ Hc) as Hl. cbn [app]. destruct (lines r) as [ls r'] eqn:Hr. cbn [feed_lines].
    destruct (bl_complete (bl_add (classify l) (sp_bld p))).
    + destruct (bl_dispatch (bl_add (classify l) (sp_bld p))) as [e|]; rewrite IH by (cbn [sp_buf]; lia); cbn [sp_buf sp_bld]; rewrite Hr;
        destruct (feed_lines builder0 ls) as [es b]; [now rewrite <- app_assoc|reflexivity].
    + rewrite IH by (cbn [sp_buf]; lia). cbn [sp_buf sp_bld]. now rewrite Hr.
  - cbn [feed_lines]. rewrite app_nil_r. cbn [app]. now destruct p.
Qed.
Lemma parse_lines chunk p : utf8_valid chunk = true ->
  sse_parse chunk p = let (ls, r) := lines (sp_buf p ++ chunk) in let (es, b) := feed_lines (sp_bld p) ls in POk es (mkSparser r b).
Proof. intros H. unfold sse_parse. rewrite H. rewrite loop_lines by (cbn [sp_buf]; lia). reflexivity. Qed.

(** * The parser as a function of blocks *)
Definition pile1 (d v : text) : text := match d with [] => v | _ => d ++ LF :: v end.
Definition pile (ds : list text) : text := fold_left pile1 ds [].
Lemma pile_snoc ds v : pile (ds ++ [v]) = match pile ds with [] => v | d => d ++ LF :: v end.
Proof. unfold pile. rewrite fold_left_app. cbn [fold_left]. now destruct (fold_left pile1 ds []). Qed.
Definition retries (vs : list text) : list N := flat_map (fun v => match dec_u64 v with Some n => [n] | None => [] end) vs.
Definition summary (block : list text) : event :=
  mkEvent (last (values (tx "event") block) []) (pile (values (tx "data") block))
    (last (filter no_nul (values (tx "id") block)) []) (last (map Some (retries (values (tx "retry") block))) None).
Lemma values_app n b1 b2 : values n (b1 ++ b2) = values n b1 ++ values n b2.
Proof. unfold values. apply flat_map_app. Qed.
Lemma classify_field c l : Ascii.eqb c COL = false -> exists n v, colon_split (c :: l) = (n, v) /\ name_value (c :: l) = (n, match v with Some v => v | None => [] end).
Proof.
  intros _. generalize (c :: l). clear. induction l as [|c l IH]; [now exists [], None|]. cbn [colon_split name_value].
  destruct (Ascii.eqb c COL); [now eexists [], _|]. destruct IH as (n & v & -> & ->). eauto.
Qed.
Lemma add_line block l : l <> [] -> bl_add (classify l) (mkBuilder (summary block) false) = mkBuilder (summary (block ++ [l])) false.
Proof.
  intros Hl. destruct l as [|c l]; [easy|]. unfold classify. unfold summary at 2. rewrite !values_app.
  destruct (Ascii.eqb c COL) eqn:Hc.
  - cbn [bl_add]. unfold values at 2 4 6 8. cbn [flat_map name_value]. rewrite Hc. cbn [text_eqb]. unfold summary.
    replace (text_eqb [] (tx "event")) with false by reflexivity. replace (text_eqb [] (tx "data")) with false by reflexivity.
    replace (text_eqb [] (tx "id")) with false by reflexivity. replace (text_eqb [] (tx "retry")) with false by reflexivity. cbn [app].
    now rewrite !app_nil_r.
  - destruct (classify_field c l Hc) as (n & v & Hs & Hv). rewrite Hs. cbn [bl_add]. unfold values at 2 4 6 8. cbn [flat_map]. rewrite Hv. rewrite !app_nil_r.
    set (w := match v with Some v => v | None => [] end). cbn [bl_event bl_complete]. unfold summary at 1 2 3 4 5 6 7 8 9. cbn [e_event e_data e_id e_retry].
    destruct (text_eqb n (tx "event")) eqn:H1.
    { apply text_eqb_eq in H1. subst n. rewrite last_last. replace (text_eqb (tx "event") (tx "data")) with false by reflexivity.
      replace (text_eqb (tx "event") (tx "id")) with false by reflexivity. replace (text_eqb (tx "event") (tx "retry")) with false by reflexivity. now rewrite !app_nil_r. }
    destruct (text_eqb n (tx "data")) eqn:H2.
    { apply text_eqb_eq in H2. subst n. replace (text_eqb (tx "data") (tx "id")) with false by reflexivity.
      replace (text_eqb (tx "data") (tx "retry")) with false by reflexivity. rewrite !app_nil_r. rewrite pile_snoc. now destruct (pile (values (tx "data") block)). }
    destruct (text_eqb n (tx "id")) eqn:H3.
    { apply text_eqb_eq in H3. subst n. replace (text_eqb (tx "id") (tx "retry")) with false by reflexivity. rewrite !app_nil_r. cbn [andb].
      rewrite filter_app. cbn [filter]. replace (no_nul w) with (negb (existsb (Ascii.eqb NUL) w)) by reflexivity. destruct (existsb (Ascii.eqb NUL) w); cbn [negb]; [now rewrite app_nil_r|now rewrite last_last]. }
    cbn [andb]. destruct (text_eqb n (tx "retry")) eqn:H4; rewrite !app_nil_r; [|reflexivity].
    unfold retries. rewrite flat_map_app. cbn [flat_map]. destruct (dec_u64 w) as [k|]; cbn [app]; rewrite ?app_nil_r; [|reflexivity].
    rewrite map_app. cbn [map]. now rewrite last_last.
Qed.
(** the event made of a block *)
Definition made_of (block : list text) : option event := bl_dispatch (mkBuilder (summary block) true).
Fixpoint somes {A} (l : list (option A)) : list A := match l with [] => [] | Some a :: l' => a :: somes l' | None :: l' => somes l' end.
Lemma feed_blocks ls : forall block,
  feed_lines (mkBuilder (summary block) false) ls =
  let (bs, r) := blocks_from block ls in (somes (map made_of bs), mkBuilder (summary r) false).
Proof.
  induction ls as [|l ls IH]; intros block; cbn [feed_lines blocks_from]; [reflexivity|]. destruct l as [|c l].
  - cbn [classify bl_add bl_complete bl_event]. change builder0 with (mkBuilder (summary []) false). rewrite IH.
    destruct (blocks_from [] ls) as [bs r]. cbn [map somes]. change (bl_dispatch (mkBuilder (summary block) true)) with (made_of block). now destruct (made_of block).
  - rewrite add_line by easy. cbn [bl_complete]. rewrite IH. reflexivity.
Qed.
