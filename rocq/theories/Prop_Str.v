(** C50 - C53: the string functions of CEL expressions. *)
From Coq Require Import String Ascii List NArith ZArith Bool Lia Arith ZifyBool.
From Verif Require Import Base Value P_Utf8 CelStr.
Import ListNotations.
Open Scope list_scope.

(** * Specifications *)
(** [p] occurs in [s] at the offset [i] *)
Definition at_offset (p s : text) (i : nat) : Prop := exists a b, s = a ++ p ++ b /\ length a = i.
Definition free_of (p s : text) : Prop := forall i, ~ at_offset p s i.
Definition first_at (p s : text) (i : nat) : Prop := at_offset p s i /\ forall j, at_offset p s j -> i <= j.
Definition last_at (p s : text) (i : nat) : Prop := at_offset p s i /\ forall j, at_offset p s j -> j <= i.
Definition scalars (cs : list N) : Prop := Forall (fun c => is_scalar c = true) cs.
Definition ascii_only (s : text) : Prop := Forall (fun a => (bval a < 128)%N) s.

(** * Searching *)
Lemma at_0 p s : at_offset p s 0 <-> starts_with p s = true.
Proof.
  rewrite starts_with_spec. split.
  - intros (a & b & -> & H). destruct a; [|discriminate]. now exists b.
  - intros (r & ->). now exists [], r.
Qed.
Lemma at_S p a s i : at_offset p (a :: s) (S i) <-> at_offset p s i.
Proof.
  split.
  - intros (x & b & H & Hl). destruct x as [|y x]; [discriminate|]. injection H as <- ->. injection Hl as <-. now exists x, b.
  - intros (x & b & -> & <-). now exists (a :: x), b.
Qed.
Lemma at_S1 p a s i : at_offset p (a :: s) (S i) -> at_offset p s i. Proof. exact (proj1 (at_S p a s i)). Qed.
Lemma at_S2 p a s i : at_offset p s i -> at_offset p (a :: s) (S i). Proof. exact (proj2 (at_S p a s i)). Qed.
Lemma at_nil p i : at_offset p [] i -> p = [] /\ i = 0.
Proof. intros (a & b & H & <-). destruct a; [|discriminate]. destruct p; [auto|discriminate]. Qed.
Lemma find_spec p s : match str_find p s with Some i => first_at p s i | None => free_of p s end.
Proof.
  induction s as [|a s IH]; cbn [str_find].
  - destruct (starts_with p []) eqn:Hs; [split; [now apply at_0|intros; lia]|]. intros i H. apply at_nil in H as [-> ->]. discriminate.
  - destruct (starts_with p (a :: s)) eqn:Hs; [split; [now apply at_0|intros; lia]|].
    assert (N0 : ~ at_offset p (a :: s) 0) by (rewrite at_0; congruence).
    destruct (str_find p s) as [i|]; cbn [option_map].
    + destruct IH as [H1 H2]. split; [now apply at_S2|]. intros [|j] Hj; [easy|]. apply at_S1 in Hj. specialize (H2 j Hj). lia.
    + intros [|j] Hj; [easy|]. apply at_S1 in Hj. now apply (IH j).
Qed.
Lemma rfind_spec p s : match str_rfind p s with Some i => last_at p s i | None => free_of p s end.
Proof.
  induction s as [|a s IH]; cbn [str_rfind].
  - destruct p as [|c p]; [split; [now exists [], []|intros j H; apply at_nil in H; lia]|]. intros i H. apply at_nil in H as [H _]. discriminate.
  - destruct (str_rfind p s) as [i|].
    + destruct IH as [H1 H2]. split; [now apply at_S2|]. intros [|j] Hj; [lia|]. apply at_S1 in Hj. specialize (H2 j Hj). lia.
    + destruct (starts_with p (a :: s)) eqn:Hs.
      * split; [now apply at_0|]. intros [|j] Hj; [lia|]. apply at_S1 in Hj. now apply IH in Hj.
      * intros [|j] Hj; [apply at_0 in Hj; congruence|]. apply at_S1 in Hj. now apply (IH j).
Qed.

(** * Splitting *)
Lemma join_cons sep x l : l <> [] -> join sep (x :: l) = x ++ sep ++ join sep l.
Proof. destruct l; easy. Qed.
Lemma split_ne_nonempty p : forall s k skip cur, split_ne p k skip cur s <> [].
Proof.
  induction s as [|a s IH]; intros k skip cur; cbn [split_ne]; [easy|]. destruct skip as [|j]; [|apply IH]. destruct k as [[|kk]|]; [easy| |]; destruct (starts_with p (a :: s)); try easy; apply IH.
Qed.
Lemma split_ne_join p : p <> [] -> forall s k skip cur, skip <= length s -> join p (split_ne p k skip cur s) = cur ++ skipn skip s.
Proof.
  intros Hp. induction s as [|a s IH]; intros k skip cur Hle; cbn [split_ne].
  - cbn. now rewrite skipn_nil, app_nil_r.
  - destruct skip as [|j]; [|cbn [skipn]; apply IH; cbn in Hle; lia].
    assert (G : forall k', join p (if starts_with p (a :: s) then cur :: split_ne p (option_map N.pred k') (length p - 1) [] s else split_ne p k' 0 (cur ++ [a]) s) = cur ++ a :: s).
    { intros k'. destruct (starts_with p (a :: s)) eqn:Hs.
      - rewrite join_cons by apply split_ne_nonempty. apply starts_with_spec in Hs as (r & Hr). destruct p as [|c p]; [easy|]. injection Hr as <- ->.
        cbn [length]. rewrite Nat.sub_succ, Nat.sub_0_r. rewrite IH by (rewrite app_length; lia). rewrite skipn_app, skipn_all, Nat.sub_diag. reflexivity.
      - rewrite IH by lia. cbn [skipn]. now rewrite <- app_assoc. }
    destruct k as [[|kk]|]; [reflexivity|apply (G (Some (N.pos kk)))|apply (G None)].
Qed.
Lemma split_chars_nonempty k cs : split_chars k cs <> [].
Proof. destruct cs as [|x cs], k as [[|m]|]; easy. Qed.
Lemma split_chars_join : forall cs k, join [] (split_chars k cs) = utf8_encode cs.
Proof.
  induction cs as [|c cs IH]; intros k.
  - destruct k as [[|kk]|]; reflexivity.
  - assert (G : forall k', join [] (utf8_char c :: split_chars k' cs) = utf8_encode (c :: cs)).
    { intros k'. rewrite join_cons by apply split_chars_nonempty. now rewrite IH. }
    destruct k as [[|kk]|]; [reflexivity|apply G|apply G].
Qed.
Lemma chars_valid s : utf8_valid s = true -> utf8_encode (chars s) = s /\ scalars (chars s).
Proof. unfold utf8_valid, chars. destruct (utf8_decode s) as [cs|] eqn:Hd; [|discriminate]. apply decode_inv in Hd as [H1 H2]. auto. Qed.
Lemma chars_encode cs : scalars cs -> chars (utf8_encode cs) = cs.
Proof. intros H. unfold chars. now rewrite (decode_encode cs H). Qed.
Lemma pieces_join p k s : utf8_valid s = true -> join p (str_pieces p k s) = s.
Proof.
  intros Hs. destruct p as [|c p].
  - cbn [str_pieces]. assert (G : forall k', join [] ([] :: split_chars k' (chars s)) = s).
    { intros k'. rewrite join_cons by apply split_chars_nonempty. cbn [app]. rewrite split_chars_join. now apply chars_valid. }
    destruct k as [[|kk]|]; [reflexivity|apply G|apply G].
  - cbn [str_pieces]. rewrite split_ne_join by (easy || lia). reflexivity.
Qed.
Lemma strings_map l : all_strings (map VString l) = Some l.
Proof. induction l as [|s l IH]; [reflexivity|]. cbn. now rewrite IH. Qed.

(** * C50 *)
(** Joining what a split returned gives the string back, for every separator (also the empty
    one), and with a limit that is not 0 as well *)
Theorem C50_join_of_split : forall s sep, utf8_valid s = true ->
  (exists l, s_split s [VString sep] = SOk (VList l) /\ s_join l [VString sep] = SOk (VString s)) /\
  (forall n, (0 < n < 4294967296)%N -> exists l, s_split s [VString sep; VUInt n] = SOk (VList l) /\ s_join l [VString sep] = SOk (VString s) /\ (N.of_nat (length l) <= n)%N).
Proof.
  intros s sep Hs. split.
  - exists (map VString (str_split sep s)). split; [reflexivity|]. unfold s_join. cbn [as_string]. rewrite strings_map. unfold str_split. now rewrite pieces_join.
  - intros n Hn. exists (map VString (str_splitn n sep s)). split; [unfold s_split, as_usize, usize_of_u64, usize_bits; now rewrite N.mod_small by lia|].
    unfold s_join, str_splitn. cbn [as_string]. rewrite strings_map. destruct (N.eqb_spec n 0) as [->|Hne]; [lia|]. rewrite pieces_join by exact Hs. split; [reflexivity|].
    rewrite map_length. destruct sep as [|c sep].
    + cbn [str_pieces]. assert (K : forall cs m, (N.of_nat (length (split_chars (Some m) cs)) <= N.succ m)%N).
      { induction cs as [|x cs IH]; intros m; destruct m as [|m]; cbn [split_chars length]; try lia. cbn [option_map]. specialize (IH (N.pred (N.pos m))). lia. }
      destruct (N.pred n) as [|m] eqn:Hm; cbn [option_map length]; [lia|]. specialize (K (chars s) (N.pred (N.pos m))). lia.
    + cbn [str_pieces]. assert (K : forall s k skip cur, (N.of_nat (length (split_ne (c :: sep) (Some k) skip cur s)) <= N.succ k)%N).
      { clear. induction s as [|a s IH]; intros k skip cur; cbn [split_ne length]; [lia|]. destruct skip as [|j]; [|apply IH]. destruct k as [|k]; [cbn; lia|].
        destruct (starts_with (c :: sep) (a :: s)); [|apply IH]. cbn [option_map]. change (length (cur :: ?l)) with (S (length l)). cbn [length]. specialize (IH (N.pred (N.pos k)) (length (c :: sep) - 1) []).
        cbn [length] in IH. lia. }
      specialize (K s (N.pred n) 0 []). lia.
Qed.
Print Assumptions C50_join_of_split.
(** without a separator the texts are put one after the other *)
Theorem C50_join_without_separator : forall l, s_join (map VString l) [] = SOk (VString (concat l)).
Proof.
  intros l. unfold s_join. rewrite strings_map. do 2 f_equal. induction l as [|x l IH]; [reflexivity|]. destruct l as [|y l]; [cbn; now rewrite app_nil_r|].
  rewrite join_cons by discriminate. cbn [app concat] in *. now rewrite IH.
Qed.
Print Assumptions C50_join_without_separator.
Example ex50_plain : s_join (map VString [tx "a"; tx "b"; tx "c"]) [] = SOk (VString (tx "abc")).
Proof. reflexivity. Qed.
Example ex50 : s_split (tx "a, b, c") [VString (tx ", ")] = SOk (VList [VString (tx "a"); VString (tx "b"); VString (tx "c")]) /\
  s_split (tx "a, b, c") [VString (tx ", "); VInt 2] = SOk (VList [VString (tx "a"); VString (tx "b, c")]) /\
  s_split (tx "ab") [VString []] = SOk (VList [VString []; VString (tx "a"); VString (tx "b"); VString []]).
Proof. split; [vm_compute; reflexivity|]. split; vm_compute; reflexivity. Qed.

(** a part can be told from the separator after it: the separator occurs in both together at
    the end only *)
Definition told (sep part : text) : Prop := forall i, at_offset sep (part ++ sep) i -> i = length part.
Lemma split_at p x r : p <> [] -> told p x -> forall k cur, k <> Some 0%N -> split_ne p k 0 cur (x ++ p ++ r) = (cur ++ x) :: split_ne p (option_map N.pred k) 0 [] r.
Proof.
  intros Hp. induction x as [|a x IH]; intros Ht k cur Hk.
  - destruct p as [|c p]; [easy|]. cbn [app split_ne]. rewrite app_nil_r.
    assert (Hs : starts_with (c :: p) (c :: p ++ r) = true) by (apply starts_with_spec; now exists r).
    assert (K : forall q y k', split_ne (c :: p) k' (length q) [] (q ++ y) = split_ne (c :: p) k' 0 [] y).
    { induction q as [|b q IHq]; intros y k'; [reflexivity|]. cbn [app length split_ne]. apply IHq. }
    destruct k as [[|kk]|]; [easy| |]; rewrite Hs; cbn [length]; rewrite Nat.sub_succ, Nat.sub_0_r; f_equal; apply K.
  - cbn [app split_ne].
    assert (Hs : starts_with p (a :: x ++ p ++ r) = false).
    { destruct (starts_with p (a :: x ++ p ++ r)) eqn:Hs; [|reflexivity]. apply starts_with_spec in Hs as (y & Hy). exfalso.
      assert (H0 : at_offset p ((a :: x) ++ p) 0).
      { apply at_0, starts_with_spec. change (a :: x ++ p ++ r) with ((a :: x) ++ p ++ r) in Hy. rewrite app_assoc in Hy.
        exists (firstn (length ((a :: x) ++ p) - length p) y).
        assert (E : firstn (length ((a :: x) ++ p)) (((a :: x) ++ p) ++ r) = firstn (length ((a :: x) ++ p)) (p ++ y)) by now rewrite Hy.
        rewrite firstn_app, firstn_all, Nat.sub_diag, firstn_O, app_nil_r in E. rewrite firstn_app in E.
        rewrite (firstn_all2 p) in E by (rewrite app_length; lia). exact E. }
      apply Ht in H0. discriminate. }
    assert (Ht' : told p x). { intros i Hi. apply (at_S2 p a) in Hi. apply Ht in Hi. now injection Hi. }
    destruct k as [[|kk]|]; [easy| |]; rewrite Hs, (IH Ht') by easy; now rewrite <- app_assoc.
Qed.
Lemma split_free p x : free_of p x -> forall cur k, split_ne p k 0 cur x = [cur ++ x].
Proof.
  induction x as [|a x IH]; intros Hf cur k; [cbn; now rewrite app_nil_r|]. cbn [split_ne].
  assert (Hs : starts_with p (a :: x) = false). { destruct (starts_with p (a :: x)) eqn:Hs; [|reflexivity]. apply at_0 in Hs. now apply Hf in Hs. }
  assert (Hf' : free_of p x). { intros i Hi. apply (at_S2 p a) in Hi. now apply Hf in Hi. }
  rewrite Hs, !(IH Hf'), <- app_assoc. now destruct k as [[|kk]|].
Qed.
Lemma split_join_parts p : p <> [] -> forall parts x, Forall (told p) (removelast (x :: parts)) -> free_of p (last (x :: parts) []) -> split_ne p None 0 [] (join p (x :: parts)) = x :: parts.
Proof.
  intros Hp. induction parts as [|y parts IH]; intros x Ht Hf.
  - cbn [join]. now rewrite split_free.
  - rewrite join_cons by easy. cbn [removelast] in Ht. inversion_clear Ht as [|? ? H1 H2]. rewrite split_at by easy. cbn [app option_map]. f_equal. apply IH; [exact H2|exact Hf].
Qed.
(** Splitting a join returns the parts, if the last part does not contain the separator and no
    other part runs into the separator after it.
    Missing for the full claim: parts that do not contain the separator but run into it. *)
Theorem C50_split_of_join_partial : forall sep x parts, sep <> [] -> Forall (told sep) (removelast (x :: parts)) -> free_of sep (last (x :: parts) []) ->
  exists s, s_join (map VString (x :: parts)) [VString sep] = SOk (VString s) /\ s_split s [VString sep] = SOk (VList (map VString (x :: parts))).
Proof.
  intros sep x parts Hs Ht Hf. exists (join sep (x :: parts)). unfold s_join. cbn [as_string]. rewrite strings_map. split; [reflexivity|]. unfold s_split, str_split. destruct sep as [|c sep]; [easy|].
  cbn [str_pieces]. now rewrite split_join_parts.
Qed.
Print Assumptions C50_split_of_join_partial.
(** in particular if the first byte of the separator is in none of the parts *)
Lemma told_first c sep x : ~ In c x -> told (c :: sep) x.
Proof.
  intros Hn i (a & b & H & <-). destruct (Nat.lt_trichotomy (length a) (length x)) as [Hl|[Hl|Hl]]; [|exact Hl|].
  - exfalso. apply Hn. assert (K : nth_error (x ++ c :: sep) (length a) = Some c) by (rewrite H, nth_error_app2, Nat.sub_diag by lia; reflexivity).
    rewrite nth_error_app1 in K by exact Hl. now apply nth_error_In in K.
  - apply (f_equal (@length _)) in H. rewrite !app_length in H. cbn in H. lia.
Qed.
Example ex50b : Forall (told (tx ", ")) (removelast [tx "a"; tx "b c"; []]) /\ free_of (tx ", ") (last [tx "a"; tx "b c"; []] []).
Proof.
  split; [repeat constructor; apply told_first; vm_compute; intuition discriminate|]. intros i H. apply at_nil in H as [H _]. discriminate.
Qed.
Theorem C50_split_of_join_refuted : exists sep parts s, Forall (free_of sep) parts /\ s_join (map VString parts) [VString sep] = SOk (VString s) /\
  exists other, s_split s [VString sep] = SOk (VList (map VString other)) /\ other <> parts.
Proof.
  exists (tx "aa"), [tx "a"; []], (tx "aaa"). split.
  - repeat constructor; intros i (a & b & H & _); apply (f_equal (@length _)) in H; rewrite !app_length in H; cbn in H; lia.
  - split; [reflexivity|]. exists [[]; tx "a"]. split; [vm_compute; reflexivity|discriminate].
Qed.
Print Assumptions C50_split_of_join_refuted.

(** * C51 *)
Lemma nskip_spec {A} (l : list A) : forall n, nskip n l = skipn (N.to_nat n) l.
Proof.
  induction l as [|a l IH]; intros n; cbn [nskip]; [now rewrite skipn_nil|]. destruct (N.eqb_spec n 0) as [->|Hn]; [reflexivity|]. rewrite IH.
  replace (N.to_nat n) with (S (N.to_nat (N.pred n))) by lia. reflexivity.
Qed.
Lemma ntake_spec {A} (l : list A) : forall n, ntake n l = firstn (N.to_nat n) l.
Proof.
  induction l as [|a l IH]; intros n; cbn [ntake]; [now rewrite firstn_nil|]. destruct (N.eqb_spec n 0) as [->|Hn]; [reflexivity|]. rewrite IH.
  replace (N.to_nat n) with (S (N.to_nat (N.pred n))) by lia. reflexivity.
Qed.
Lemma nnth_spec {A} (l : list A) : forall n, nnth n l = nth_error l (N.to_nat n).
Proof.
  induction l as [|a l IH]; intros n; cbn [nnth]; [now destruct (N.to_nat n)|]. destruct (N.eqb_spec n 0) as [->|Hn]; [reflexivity|]. rewrite IH.
  replace (N.to_nat n) with (S (N.to_nat (N.pred n))) by lia. reflexivity.
Qed.
Definition index (i : nat) : value := VInt (Z.of_nat i).
Lemma index_usize i : (N.of_nat i < 4294967296)%N -> as_usize (index i) = Some (N.of_nat i).
Proof. intros H. cbn. unfold usize_of_i64. rewrite Z.mod_small by lia. f_equal. lia. Qed.
(** Characters, not bytes: for indices below 2^32 *)
Theorem C51_substring_and_charAt_partial : forall cs, scalars cs -> forall i j, (N.of_nat i < 4294967296)%N -> (N.of_nat j < 4294967296)%N -> (N.of_nat (length cs) < 4294967296)%N ->
  let s := utf8_encode cs in
  (i <= j -> s_substring s [index i; index j] = SOk (VString (utf8_encode (firstn (j - i) (skipn i cs))))) /\
  (j < i -> s_substring s [index i; index j] = SErr) /\
  (i <= length cs -> s_substring s [index i] = SOk (VString (utf8_encode (skipn i cs)))) /\
  (length cs < i -> s_substring s [index i] = SErr) /\
  (forall c, nth_error cs i = Some c -> s_char_at s [index i] = SOk (VString (utf8_char c)) /\ s_substring s [index i; index (S i)] = SOk (VString (utf8_char c))) /\
  (nth_error cs i = None -> s_char_at s [index i] = SErr) /\
  (i <= length cs -> exists a b, s_substring s [index 0; index i] = SOk (VString a) /\ s_substring s [index i] = SOk (VString b) /\ a ++ b = s).
Proof.
  intros cs Hcs i j Hi Hj Hlen s. unfold s_substring, s_char_at. unfold s. rewrite (chars_encode cs Hcs).
  assert (S2 : forall a b, (N.of_nat a < 4294967296)%N -> (N.of_nat b < 4294967296)%N ->
    match as_usize (index a), as_usize (index b) with Some x, Some y => if (y <? x)%N then SErr else SOk (VString (utf8_encode (ntake (y - x) (nskip x cs)))) | _, _ => SErr end
    = if Nat.ltb b a then SErr else SOk (VString (utf8_encode (firstn (b - a) (skipn a cs))))).
  { intros a b Ha Hb. rewrite !index_usize by assumption. destruct (N.ltb_spec (N.of_nat b) (N.of_nat a)), (Nat.ltb_spec b a); try lia; [reflexivity|].
    rewrite ntake_spec, nskip_spec. repeat f_equal; lia. }
  assert (S1 : forall a, (N.of_nat a < 4294967296)%N ->
    match as_usize (index a), Some (N.of_nat (length cs)) with Some x, Some y => if (y <? x)%N then SErr else SOk (VString (utf8_encode (ntake (y - x) (nskip x cs)))) | _, _ => SErr end
    = if Nat.ltb (length cs) a then SErr else SOk (VString (utf8_encode (skipn a cs)))).
  { intros a Ha. rewrite index_usize by assumption. destruct (N.ltb_spec (N.of_nat (length cs)) (N.of_nat a)), (Nat.ltb_spec (length cs) a); try lia; [reflexivity|].
    rewrite ntake_spec, nskip_spec, Nat2N.id. rewrite firstn_all2; [reflexivity|]. rewrite skipn_length. lia. }
  assert (C1 : forall c, nth_error cs i = Some c -> firstn 1 (skipn i cs) = [c]).
  { intros c H. apply nth_error_split in H as (l1 & l2 & -> & <-). rewrite skipn_app, skipn_all, Nat.sub_diag. reflexivity. }
  split; [intros H; rewrite S2 by assumption; destruct (Nat.ltb_spec j i); [lia|reflexivity]|].
  split; [intros H; rewrite S2 by assumption; destruct (Nat.ltb_spec j i); [reflexivity|lia]|].
  split; [intros H; rewrite S1 by assumption; destruct (Nat.ltb_spec (length cs) i); [lia|reflexivity]|].
  split; [intros H; rewrite S1 by assumption; destruct (Nat.ltb_spec (length cs) i); [reflexivity|lia]|].
  assert (X : usize_of_i64 (Z.of_nat i) = N.of_nat i) by (pose proof (index_usize i Hi) as K; now injection K).
  split; [intros c H|split; [intros H|intros H]].
  - cbn [index]. unfold index. rewrite X, nnth_spec, Nat2N.id, H. split; [reflexivity|]. fold (index i). fold (index (S i)).
    assert (Hlt : i < length cs) by (apply nth_error_Some; congruence).
    rewrite S2 by lia. destruct (Nat.ltb_spec (S i) i); [lia|]. replace (S i - i) with 1 by lia. rewrite (C1 c H). cbn. now rewrite app_nil_r.
  - unfold index. now rewrite X, nnth_spec, Nat2N.id, H.
  - exists (utf8_encode (firstn i cs)), (utf8_encode (skipn i cs)). rewrite S2 by lia. rewrite S1 by assumption. destruct (Nat.ltb_spec i 0), (Nat.ltb_spec (length cs) i); try lia.
    cbn [skipn]. rewrite Nat.sub_0_r. split; [reflexivity|]. split; [reflexivity|]. rewrite <- encode_app. now rewrite firstn_skipn.
Qed.
Print Assumptions C51_substring_and_charAt_partial.
Example ex51 : s_substring (utf8_encode [104; 233; 8364; 128512]%N) [index 1; index 3] = SOk (VString (utf8_encode [233; 8364]%N)) /\ scalars [104; 233; 8364; 128512]%N.
Proof. split; [vm_compute; reflexivity|]. repeat constructor. Qed.
(** Indices are reduced modulo 2^32, negative ones too *)
Theorem C51_indices_wrap_refuted : exists s, s_char_at s [VInt 4294967296] = s_char_at s [VInt 0] /\ s_char_at s [VInt 0] <> SErr /\
  s_substring s [VInt 0; VInt (-1)] = SOk (VString s) /\ s_substring s [VInt 4294967297] = SOk (VString (tx "bc")).
Proof. exists (tx "abc"). split; [vm_compute; reflexivity|]. split; [vm_compute; discriminate|]. split; vm_compute; reflexivity. Qed.
Print Assumptions C51_indices_wrap_refuted.
(** indexOf and lastIndexOf without offset: the first and the last place (as byte offsets) where
    the pattern occurs, -1 if it does not *)
Theorem C51_indexOf_is_first_and_lastIndexOf_last : forall s p,
  ((exists i, first_at p s i /\ s_index_of s [VString p] = SOk (VUInt (N.of_nat i))) \/ (free_of p s /\ s_index_of s [VString p] = SOk (VInt (-1)))) /\
  ((exists i, last_at p s i /\ s_last_index_of s [VString p] = SOk (VUInt (N.of_nat i))) \/ (free_of p s /\ s_last_index_of s [VString p] = SOk (VInt (-1)))).
Proof.
  intros s p. unfold s_index_of, s_last_index_of. pose proof (find_spec p s) as Hf. pose proof (rfind_spec p s) as Hr. split.
  - destruct (str_find p s) as [i|]; [left; eauto|right; auto].
  - destruct (str_rfind p s) as [i|]; [left; eauto|right; auto].
Qed.
Print Assumptions C51_indexOf_is_first_and_lastIndexOf_last.
Example ex51b : s_index_of (tx "a.b.c") [VString (tx ".")] = SOk (VUInt 1) /\ s_last_index_of (tx "a.b.c") [VString (tx ".")] = SOk (VUInt 3).
Proof. split; vm_compute; reflexivity. Qed.

(** * C52 *)
Theorem C52_offsets_are_bytes_refuted : exists s p n, utf8_valid s = true /\ s_index_of s [VString p] = SOk (VUInt n) /\ s_last_index_of s [VString p] = SOk (VUInt n) /\
  s_char_at s [VInt (Z.of_N n)] = SErr /\ s_char_at s [VInt (Z.of_N n - 1)] = SOk (VString p).
Proof. exists (utf8_encode [233; 97]%N), (tx "a"), 2%N. split; [vm_compute; reflexivity|]. split; [vm_compute; reflexivity|]. split; [vm_compute; reflexivity|]. split; vm_compute; reflexivity. Qed.
Print Assumptions C52_offsets_are_bytes_refuted.
Theorem C52_panics_refuted : exists s p b, utf8_valid s = true /\ s_index_of s [VString p; VInt b] = SPanic /\ s_last_index_of s [VString p; VInt b] = SPanic.
Proof. exists (utf8_encode [233]%N), (tx "a"), 1%Z. split; [vm_compute; reflexivity|]. split; vm_compute; reflexivity. Qed.
Print Assumptions C52_panics_refuted.
Theorem C52_lastIndexOf_offset_refuted : exists s p b i, ascii_only s /\ last_at p s i /\ (Z.of_nat i >= b)%Z /\ s_last_index_of s [VString p; VInt b] = SOk (VUInt 0) /\ i <> 0.
Proof.
  exists (tx "ab"), (tx "b"), 1%Z, 1. split; [repeat constructor|]. split; [|split; [lia|split; [vm_compute; reflexivity|easy]]].
  pose proof (rfind_spec (tx "b") (tx "ab")) as K. exact K.
Qed.
Print Assumptions C52_lastIndexOf_offset_refuted.
(** ASCII strings shorter than 2^32 bytes: positions are those of substring, nothing panics, and
    indexOf with an offset is the first place from there on.
    Missing for the full claim: other strings, and lastIndexOf with an offset. *)
Lemma ascii_chars s : ascii_only s -> chars s = map bval s /\ utf8_encode (map bval s) = s /\ scalars (map bval s).
Proof.
  intros H. assert (D : utf8_decode s = Some (map bval s)).
  { induction H as [|a s Ha _ IH]; [reflexivity|]. cbn [utf8_decode map]. destruct (N.ltb_spec (bval a) 128); [|lia]. now rewrite IH. }
  unfold chars. rewrite D. split; [reflexivity|]. apply decode_inv in D as [D1 D2]. auto.
Qed.
Lemma ascii_boundary s i : ascii_only s -> boundary s i = true.
Proof.
  intros H. unfold boundary. rewrite nnth_spec. destruct (nth_error s (N.to_nat i)) as [a|] eqn:Hn; [|reflexivity]. apply nth_error_In in Hn. unfold ascii_only in H. rewrite Forall_forall in H.
  apply H in Hn. unfold is_cont, in_rng. destruct (N.leb_spec 128 (bval a)); [lia|reflexivity].
Qed.
Theorem C52_ascii_positions_partial : forall s p, ascii_only s -> (N.of_nat (length s) < 4294967296)%N ->
  (forall n, s_index_of s [VString p] = SOk (VUInt n) \/ s_last_index_of s [VString p] = SOk (VUInt n) ->
    s_substring s [VUInt n; VUInt (n + N.of_nat (length p))] = SOk (VString p)) /\
  (forall args, s_index_of s args <> SPanic /\ s_last_index_of s args <> SPanic) /\
  (forall b, (N.of_nat b < 4294967296)%N ->
    (exists i, b <= i < length s /\ at_offset p s i /\ (forall j, b <= j -> at_offset p s j -> i <= j) /\ s_index_of s [VString p; index b] = SOk (VUInt (N.of_nat i))) \/
    ((forall j, b <= j < length s -> ~ at_offset p s j) /\ (b <= length s -> p <> [] -> s_index_of s [VString p; index b] = SOk (VInt (-1))))).
Proof.
  intros s p Ha Hlen. destruct (ascii_chars s Ha) as (C1 & C2 & C3). split; [|split].
  - intros n Hn. assert (Hat : at_offset p s (N.to_nat n)).
    { unfold s_index_of, s_last_index_of in Hn. pose proof (find_spec p s) as Hf. pose proof (rfind_spec p s) as Hr. destruct Hn as [Hn|Hn].
      - destruct (str_find p s) as [i|]; [|discriminate]. injection Hn as <-. rewrite Nat2N.id. apply Hf.
      - destruct (str_rfind p s) as [i|]; [|discriminate]. injection Hn as <-. rewrite Nat2N.id. apply Hr. }
    destruct Hat as (a & b & Hs & Hla). assert (Hl : length s = length a + (length p + length b)) by (rewrite Hs, !app_length; reflexivity).
    unfold s_substring, as_usize, usize_of_u64, usize_bits. rewrite !N.mod_small by lia. destruct (N.ltb_spec (n + N.of_nat (length p)) n); [lia|].
    rewrite C1, ntake_spec, nskip_spec. replace (N.to_nat (n + N.of_nat (length p) - n)) with (length p) by lia. rewrite <- Hla. f_equal. f_equal.
    rewrite Hs, !map_app. rewrite skipn_app, map_length, skipn_all2, Nat.sub_diag by (rewrite map_length; lia). cbn [app skipn].
    rewrite firstn_app, map_length, Nat.sub_diag, firstn_all2, firstn_O, app_nil_r by (rewrite map_length; lia).
    assert (Hp : ascii_only p) by (unfold ascii_only in *; rewrite Hs, !Forall_app in Ha; tauto). now apply ascii_chars.
  - intros args. unfold s_index_of, s_last_index_of. split; (destruct args as [|v [|w [|x args]]]; [discriminate|destruct v; discriminate| |destruct v; discriminate]); destruct v; try discriminate;
      (destruct (as_usize w) as [b|]; [|discriminate]); (destruct (N.of_nat (length s) <=? b)%N; [discriminate|]); rewrite (ascii_boundary s b Ha); discriminate.
  - intros b Hb. unfold s_index_of. rewrite index_usize by exact Hb. destruct (N.leb_spec (N.of_nat (length s)) (N.of_nat b)) as [Hle|Hlt].
    + right. split; [intros; lia|auto].
    + rewrite (ascii_boundary s _ Ha). cbn [negb]. rewrite nskip_spec, Nat2N.id.
      assert (Sk : forall j, b <= j -> (at_offset p s j <-> at_offset p (skipn b s) (j - b))).
      { intros j Hj. split.
        - intros (x & y & Hs & Hx). exists (skipn b x), y. split; [|rewrite skipn_length; lia]. rewrite Hs, skipn_app. replace (b - length x) with 0 by lia. reflexivity.
        - intros (x & y & Hs & Hx). exists (firstn b s ++ x), y. split; [rewrite <- app_assoc, <- Hs; now rewrite firstn_skipn|]. rewrite app_length, firstn_length. lia. }
      pose proof (find_spec p (skipn b s)) as Hf. destruct (str_find p (skipn b s)) as [i|].
      * destruct Hf as [F1 F2]. assert (Hat : at_offset p s (b + i)) by (apply Sk; [lia|]; replace (b + i - b) with i by lia; exact F1).
        assert (Hin : b + i < length s \/ (p = [] /\ b + i = length s) \/ True) by tauto.
        destruct (Nat.lt_ge_cases (b + i) (length s)) as [Hl|Hg].
        -- left. exists (b + i). split; [lia|]. split; [exact Hat|]. split; [|f_equal; f_equal; lia]. intros j Hj Hjat. apply Sk in Hjat; [|exact Hj]. apply F2 in Hjat. lia.
        -- exfalso. assert (Hpe : p = []). { destruct Hat as (x & y & Hs & Hx). apply (f_equal (@length _)) in Hs. rewrite !app_length in Hs. destruct p; [reflexivity|cbn in Hs; lia]. }
           subst p. assert (H0 : at_offset [] (skipn b s) 0) by now exists [], (skipn b s). apply F2 in H0. lia.
      * right. split; [|intros; reflexivity]. intros j Hj Hjat. apply Sk in Hjat; [|lia]. now apply Hf in Hjat.
Qed.
Print Assumptions C52_ascii_positions_partial.
Example ex52 : s_index_of (tx "a.b.c") [VString (tx "."); index 2] = SOk (VUInt 3) /\ ascii_only (tx "a.b.c").
Proof. split; [vm_compute; reflexivity|repeat constructor]. Qed.

(** * C53 *)
(** every occurrence, from the left, without overlaps *)
Inductive replaced (p to : text) : text -> text -> Prop :=
| rep_none s : free_of p s -> replaced p to s s
| rep_first a b r : first_at p (a ++ p ++ b) (length a) -> replaced p to b r -> replaced p to (a ++ p ++ b) (a ++ to ++ r).
Lemma told_of_first p a b : first_at p (a ++ p ++ b) (length a) -> told p a.
Proof.
  intros [_ H] i (x & y & Hs & <-). assert (length a <= length x).
  { apply H. exists x, (y ++ b). split; [|reflexivity]. rewrite app_assoc, Hs, <- !app_assoc. reflexivity. }
  apply (f_equal (@length _)) in Hs. rewrite !app_length in Hs. lia.
Qed.
Theorem C53_replace_replaces_all : forall s p to, p <> [] -> exists r, s_replace s [VString p; VString to] = SOk (VString r) /\ replaced p to s r.
Proof.
  intros s p to Hp. unfold s_replace, str_replace. eexists. split; [reflexivity|].
  assert (Hpc : str_pieces p None s = split_ne p None 0 [] s) by (destruct p; easy). rewrite Hpc. clear Hpc.
  remember (length s) as n eqn:Hn. revert s Hn. induction n as [n IH] using (well_founded_induction Wf_nat.lt_wf). intros s ->. pose proof (find_spec p s) as Hf.
  destruct (str_find p s) as [i|].
  - pose proof Hf as [(a & b & -> & Hl) _]. rewrite <- Hl in Hf. rewrite split_at; [|exact Hp|now apply told_of_first in Hf|easy]. cbn [option_map app].
    rewrite join_cons by apply split_ne_nonempty. constructor; [exact Hf|]. apply (IH (length b)); [|reflexivity]. rewrite !app_length. destruct p; [easy|cbn; lia].
  - rewrite split_free by exact Hf. cbn [app join]. now constructor.
Qed.
Print Assumptions C53_replace_replaces_all.
Example ex53 : s_replace (tx "aaa-b") [VString (tx "aa"); VString (tx "x")] = SOk (VString (tx "xa-b")).
Proof. vm_compute. reflexivity. Qed.
(** the first occurrences, at most so many *)
Inductive replaced_upto (p to : text) : N -> text -> text -> Prop :=
| ru_none n s : free_of p s -> replaced_upto p to n s s
| ru_enough s : replaced_upto p to 0 s s
| ru_first n a b r : first_at p (a ++ p ++ b) (length a) -> replaced_upto p to n b r -> replaced_upto p to (N.succ n) (a ++ p ++ b) (a ++ to ++ r).
Lemma split_enough p : forall s cur, split_ne p (Some 0%N) 0 cur s = [cur ++ s].
Proof. intros [|a s] cur; cbn [split_ne]; [now rewrite app_nil_r|reflexivity]. Qed.
Theorem C53_replace_replaces_at_most : forall s p to n, p <> [] -> (n < 2 ^ 32)%N -> exists r, s_replace s [VString p; VString to; VUInt n] = SOk (VString r) /\ replaced_upto p to n s r.
Proof.
  intros s p to k Hp Hk. unfold s_replace, str_replacen. cbn [as_usize]. assert (Hu : usize_of_u64 k = k) by now apply N.mod_small. rewrite Hu. clear Hu Hk. eexists. split; [reflexivity|].
  assert (Hpc : str_pieces p (Some k) s = split_ne p (Some k) 0 [] s) by (destruct p; easy). rewrite Hpc. clear Hpc.
  remember (length s) as n eqn:Hn. revert k s Hn. induction n as [n IH] using (well_founded_induction Wf_nat.lt_wf). intros k s ->. destruct k as [|k]; [rewrite split_enough; cbn [app join]; apply ru_enough|].
  pose proof (find_spec p s) as Hf. destruct (str_find p s) as [i|].
  - pose proof Hf as [(a & b & -> & Hl) _]. rewrite <- Hl in Hf. rewrite split_at; [|exact Hp|now apply told_of_first in Hf|easy]. cbn [option_map app].
    rewrite join_cons by apply split_ne_nonempty. rewrite <- (N.succ_pred (N.pos k)) at 1 by easy. apply ru_first; [exact Hf|].
    apply (IH (length b)); [|reflexivity]. rewrite !app_length. destruct p; [easy|cbn; lia].
  - rewrite split_free by exact Hf. cbn [app join]. now apply ru_none.
Qed.
Print Assumptions C53_replace_replaces_at_most.
Example ex53_most : s_replace (tx "a-a-a") [VString (tx "a"); VString (tx "bb"); VUInt 2] = SOk (VString (tx "bb-bb-a")).
Proof. vm_compute. reflexivity. Qed.
Theorem C53_replace_without_occurrence : forall s p to n, free_of p s -> s_replace s [VString p; VString to] = SOk (VString s) /\ s_replace s [VString p; VString to; VUInt n] = SOk (VString s).
Proof.
  intros s p to n Hf. assert (Hp : p <> []) by (intros ->; apply (Hf 0); now exists [], s). unfold s_replace, str_replace, str_replacen. cbn [as_usize].
  destruct p as [|c p]; [easy|]. cbn [str_pieces]. now rewrite !split_free.
Qed.
Print Assumptions C53_replace_without_occurrence.
(** case mapping *)
Lemma lower_same a : lower_byte (lower_byte a) = lower_byte a.
Proof.
  unfold lower_byte. destruct (in_rng 65 90 a) eqn:H; [|now rewrite H]. unfold in_rng in *. rewrite bval_asc by (pose proof (bval_bound a); lia).
  destruct (65 <=? bval a + 32)%N eqn:H1, (bval a + 32 <=? 90)%N eqn:H2; try reflexivity. lia.
Qed.
Lemma upper_same a : upper_byte (upper_byte a) = upper_byte a.
Proof.
  unfold upper_byte. destruct (in_rng 97 122 a) eqn:H; [|now rewrite H]. unfold in_rng in *. rewrite bval_asc by (pose proof (bval_bound a); lia).
  destruct (97 <=? bval a - 32)%N eqn:H1, (bval a - 32 <=? 122)%N eqn:H2; try reflexivity. lia.
Qed.
Definition to_lower (c : N) : N := if ((65 <=? c) && (c <=? 90))%N then (c + 32)%N else c.
Definition to_upper (c : N) : N := if ((97 <=? c) && (c <=? 122))%N then (c - 32)%N else c.
Lemma high_byte f a : (128 <= bval a)%N -> (f = lower_byte \/ f = upper_byte) -> f a = a.
Proof. intros H [-> | ->]; unfold lower_byte, upper_byte, in_rng; [destruct (65 <=? bval a)%N eqn:H1, (bval a <=? 90)%N eqn:H2|destruct (97 <=? bval a)%N eqn:H1, (bval a <=? 122)%N eqn:H2]; try reflexivity; lia. Qed.
Lemma map_char c : is_scalar c = true -> map lower_byte (utf8_char c) = utf8_char (to_lower c) /\ map upper_byte (utf8_char c) = utf8_char (to_upper c).
Proof.
  intros Hc. unfold is_scalar in Hc. destruct (N.lt_ge_cases c 128) as [H1|H1].
  - assert (U : utf8_char c = [ascii_of_N c]) by (unfold utf8_char; destruct (N.ltb_spec c 128); [reflexivity|lia]). rewrite U. clear U.
    unfold to_lower, to_upper, utf8_char. cbn [map]. unfold lower_byte, upper_byte, in_rng. rewrite bval_asc by lia. split.
    + destruct ((65 <=? c) && (c <=? 90))%N eqn:Hb; [destruct (N.ltb_spec (c + 32) 128); [reflexivity|lia]|destruct (N.ltb_spec c 128); [reflexivity|lia]].
    + destruct ((97 <=? c) && (c <=? 122))%N eqn:Hb; [destruct (N.ltb_spec (c - 32) 128); [reflexivity|lia]|destruct (N.ltb_spec c 128); [reflexivity|lia]].
  - assert (T1 : to_lower c = c) by (unfold to_lower; destruct ((65 <=? c) && (c <=? 90))%N eqn:Hb; [lia|reflexivity]).
    assert (T2 : to_upper c = c) by (unfold to_upper; destruct ((97 <=? c) && (c <=? 122))%N eqn:Hb; [lia|reflexivity]). rewrite T1, T2. clear T1 T2.
    assert (K : forall f l, (f = lower_byte \/ f = upper_byte) -> Forall (fun a => (128 <= bval a)%N) l -> map f l = l).
    { intros f l Hf Hl. induction Hl as [|a l Ha _ IH]; [reflexivity|]. cbn [map]. now rewrite (high_byte f a Ha Hf), IH. }
    assert (F : Forall (fun a => (128 <= bval a)%N) (utf8_char c)).
    { unfold utf8_char. destruct (N.ltb_spec c 128); [lia|].
      pose proof (N.mod_upper_bound c 64 ltac:(lia)). pose proof (N.mod_upper_bound (c / 64) 64 ltac:(lia)). pose proof (N.mod_upper_bound (c / 4096) 64 ltac:(lia)).
      destruct (N.ltb_spec c 2048); [assert (c / 64 < 32)%N by (apply N.div_lt_upper_bound; lia)|destruct (N.ltb_spec c 65536); [assert (c / 4096 < 16)%N by (apply N.div_lt_upper_bound; lia)|assert (c / 262144 < 8)%N by (apply N.div_lt_upper_bound; lia)]];
        repeat constructor; rewrite bval_asc by lia; lia. }
    split; apply K; auto.
Qed.
(** Lower and upper case: idempotent; only A-Z and a-z change, character by character *)
Theorem C53_case_mapping : forall cs, scalars cs -> let s := utf8_encode cs in
  s_lower s = SOk (VString (utf8_encode (map to_lower cs))) /\ s_upper s = SOk (VString (utf8_encode (map to_upper cs))) /\
  (forall r, s_lower s = SOk (VString r) -> s_lower r = SOk (VString r)) /\ (forall r, s_upper s = SOk (VString r) -> s_upper r = SOk (VString r)).
Proof.
  intros cs Hcs s. unfold s_lower, s_upper.
  assert (M : map lower_byte s = utf8_encode (map to_lower cs) /\ map upper_byte s = utf8_encode (map to_upper cs)).
  { unfold s. induction Hcs as [|c cs Hc _ [I1 I2]]; [split; reflexivity|]. cbn [utf8_encode flat_map map] in *. fold (utf8_encode cs) in *. rewrite !map_app. destruct (map_char c Hc) as [-> ->].
    now rewrite I1, I2. }
  destruct M as [M1 M2]. split; [now rewrite M1|]. split; [now rewrite M2|]. clear. split; intros r [= <-]; f_equal; f_equal; rewrite map_map; apply map_ext; intros a; [apply lower_same|apply upper_same].
Qed.
Print Assumptions C53_case_mapping.
Example ex53b : s_lower (utf8_encode [65; 201; 98]%N) = SOk (VString (utf8_encode [97; 201; 98]%N)).
Proof. vm_compute. reflexivity. Qed.
(** trim removes the white space around a string and nothing else *)
Definition white (c : N) : Prop := In c [9; 10; 11; 12; 13; 32; 133; 160; 5760; 8192; 8193; 8194; 8195; 8196; 8197; 8198; 8199; 8200; 8201; 8202; 8232; 8233; 8239; 8287; 12288]%N.
Lemma white_space c : is_space c = true <-> white c.
Proof.
  unfold is_space, white. cbn [In]. split.
  - intros H. lia.
  - intros H. repeat (destruct H as [<-|H]; [reflexivity|]). destruct H.
Qed.
Lemma trim_start_spec cs : exists a, cs = a ++ trim_start cs /\ Forall white a /\ (forall c r, trim_start cs = c :: r -> ~ white c).
Proof.
  induction cs as [|c cs (a & H1 & H2 & H3)]; [exists []; repeat split; auto; discriminate|]. cbn [trim_start]. destruct (is_space c) eqn:Hs.
  - exists (c :: a). split; [cbn; congruence|]. split; [constructor; [now apply white_space|exact H2]|exact H3].
  - exists []. split; [reflexivity|]. split; [constructor|]. intros x r [= <- _] Hw. apply white_space in Hw. congruence.
Qed.
Theorem C53_trim_removes_surrounding_space : forall cs, scalars cs -> exists a t b, cs = a ++ t ++ b /\ Forall white a /\ Forall white b /\
  (forall c r, t = c :: r -> ~ white c) /\ (forall c r, t = r ++ [c] -> ~ white c) /\ s_trim (utf8_encode cs) = SOk (VString (utf8_encode t)) /\ s_trim (utf8_encode t) = SOk (VString (utf8_encode t)).
Proof.
  intros cs Hcs. destruct (trim_start_spec cs) as (a & A1 & A2 & A3). destruct (trim_start_spec (rev (trim_start cs))) as (b & B1 & B2 & B3). set (t := trim_chars cs).
  assert (T : trim_start cs = t ++ rev b). { unfold t, trim_chars. rewrite <- rev_app_distr, <- B1. now rewrite rev_involutive. }
  assert (F : forall c r, t = c :: r -> ~ white c). { intros c r Ht. apply (A3 c (r ++ rev b)). now rewrite T, Ht. }
  assert (L : forall c r, t = r ++ [c] -> ~ white c). { intros c r Ht. apply (B3 c (rev r)). unfold t, trim_chars in Ht. apply (f_equal (@rev _)) in Ht. rewrite rev_involutive, rev_app_distr in Ht. exact Ht. }
  exists a, t, (rev b). split; [now rewrite <- T|]. split; [exact A2|]. split; [now apply Forall_rev|]. split; [exact F|]. split; [exact L|].
  assert (Ht : scalars t). { unfold scalars in *. rewrite A1, T, !Forall_app in Hcs. tauto. }
  unfold s_trim. rewrite !chars_encode by assumption. split; [reflexivity|]. f_equal. f_equal. f_equal. unfold trim_chars.
  assert (N : forall l, (forall c r, l = c :: r -> ~ white c) -> trim_start l = l).
  { intros [|c l] Hl; [reflexivity|]. cbn [trim_start]. destruct (is_space c) eqn:Hs; [apply white_space in Hs; now apply Hl with (r := l) in Hs|reflexivity]. }
  rewrite (N t F). rewrite N; [apply rev_involutive|]. intros c r Hr. apply (L c (rev r)). apply (f_equal (@rev _)) in Hr. rewrite rev_involutive in Hr. exact Hr.
Qed.
Print Assumptions C53_trim_removes_surrounding_space.
Example ex53c : s_trim (utf8_encode [160; 9; 97; 32; 98; 8232]%N) = SOk (VString (tx "a b")).
Proof. vm_compute. reflexivity. Qed.

(** * The results are strings: cutting at a valid separator leaves valid UTF-8 *)
Lemma head_not_cont c r : is_scalar c = true -> exists a l, utf8_char c ++ r = a :: l ++ r /\ utf8_char c = a :: l /\ is_cont a = false /\ Forall (fun b => is_cont b = true) l.
Proof.
  intros Hc. unfold is_scalar in Hc. unfold utf8_char, is_cont, in_rng.
  pose proof (N.mod_upper_bound c 64 ltac:(lia)). pose proof (N.mod_upper_bound (c / 64) 64 ltac:(lia)). pose proof (N.mod_upper_bound (c / 4096) 64 ltac:(lia)).
  destruct (N.ltb_spec c 128); [|destruct (N.ltb_spec c 2048); [assert (c / 64 < 32)%N by (apply N.div_lt_upper_bound; lia)|destruct (N.ltb_spec c 65536); [assert (c / 4096 < 16)%N by (apply N.div_lt_upper_bound; lia)|assert (c / 262144 < 8)%N by (apply N.div_lt_upper_bound; lia)]]];
    eexists _, _; (split; [reflexivity|]); (split; [reflexivity|]); (split; [rewrite bval_asc by lia; lia|]); repeat constructor; rewrite bval_asc by lia; lia.
Qed.
Lemma cut_is_valid p : utf8_valid p = true -> p <> [] -> forall cs, scalars cs -> forall a b, utf8_encode cs = a ++ p ++ b -> utf8_valid a = true.
Proof.
  intros Hp Hne cs Hcs. assert (Hh : exists x q, p = x :: q /\ is_cont x = false).
  { apply chars_valid in Hp as [H1 H2]. destruct (chars p) as [|c l]; [cbn in H1; congruence|]. inversion_clear H2 as [|? ? H3 _]. destruct (head_not_cont c (utf8_encode l) H3) as (x & y & H4 & _ & H5 & _).
    exists x, (y ++ utf8_encode l). split; [|exact H5]. rewrite <- H1. exact H4. }
  destruct Hh as (x & q & -> & Hx). induction Hcs as [|c cs Hc Hcs IH]; intros a b H.
  - destruct a; [reflexivity|discriminate].
  - cbn [utf8_encode flat_map] in H. fold (utf8_encode cs) in H. destruct (head_not_cont c (utf8_encode cs) Hc) as (y & l & H1 & H2 & H3 & H4). rewrite H1 in H.
    destruct a as [|z a]; [reflexivity|]. injection H as <- H.
    assert (K : exists a', a = l ++ a').
    { clear -H H4 Hx. revert a H. induction H4 as [|w l Hw _ IH]; intros a H; [now exists a|]. destruct a as [|z a]; cbn [app] in H; injection H as -> H; [congruence|].
      destruct (IH a H) as (a' & ->). now exists a'. }
    destruct K as (a' & ->). rewrite <- app_assoc in H. apply app_inv_head in H. specialize (IH a' b H). change (y :: l ++ a') with ((y :: l) ++ a'). rewrite <- H2. apply valid_app; [|exact IH].
    rewrite <- (app_nil_r (utf8_char c)). change (utf8_char c ++ []) with (utf8_encode [c]). apply valid_encode. now repeat constructor.
Qed.
Lemma suffix_valid a b : utf8_valid a = true -> utf8_valid (a ++ b) = true -> utf8_valid b = true.
Proof.
  unfold utf8_valid. destruct (utf8_decode a) as [cs|] eqn:Ha; [|discriminate]. rewrite (decode_app_chars a cs b Ha). destruct (utf8_decode b); [reflexivity|discriminate].
Qed.
Lemma pieces_valid p : utf8_valid p = true -> p <> [] -> forall s k, utf8_valid s = true -> Forall (fun x => utf8_valid x = true) (split_ne p k 0 [] s).
Proof.
  intros Hp Hne s. remember (length s) as n eqn:Hn. revert s Hn. induction n as [n IH] using (well_founded_induction Wf_nat.lt_wf). intros s -> k Hs. pose proof (find_spec p s) as Hf.
  destruct (match k with Some 0%N => true | _ => false end) eqn:Hk.
  - destruct k as [[|kk]|]; try discriminate. destruct s; cbn [split_ne app]; constructor; auto.
  - assert (Hk' : k <> Some 0%N) by (intros ->; discriminate). destruct (str_find p s) as [i|].
    + pose proof Hf as [(a & b & -> & Hl) _]. rewrite <- Hl in Hf. rewrite split_at; [|exact Hne|now apply told_of_first in Hf|exact Hk']. cbn [app].
      pose proof (chars_valid _ Hs) as [C1 C2]. pose proof (cut_is_valid p Hp Hne (chars (a ++ p ++ b)) C2 a b C1) as Ha. constructor; [exact Ha|].
      apply (IH (length b)); [rewrite !app_length; destruct p; [easy|cbn; lia]|reflexivity|]. apply (suffix_valid p b Hp). now apply (suffix_valid a).
    + rewrite split_free by exact Hf. constructor; auto.
Qed.
(** What split returns are strings again *)
Theorem C50_pieces_are_valid_strings : forall s sep l, utf8_valid s = true -> utf8_valid sep = true -> s_split s [VString sep] = SOk (VList l) ->
  Forall (fun v => exists x, v = VString x /\ utf8_valid x = true) l.
Proof.
  intros s sep l Hs Hsep [= <-]. apply Forall_forall. intros v Hv. apply in_map_iff in Hv as (x & <- & Hx). exists x. split; [reflexivity|]. revert x Hx. apply Forall_forall. unfold str_split.
  destruct sep as [|c sep]; cbn [str_pieces]; [|now apply pieces_valid]. constructor; [reflexivity|]. apply chars_valid in Hs as [_ Hs]. cbn [option_map].
  induction Hs as [|c cs Hc _ IH]; cbn [split_chars]; constructor; auto. rewrite <- (app_nil_r (utf8_char c)). change (utf8_char c ++ []) with (utf8_encode [c]). apply valid_encode. now repeat constructor.
Qed.
Print Assumptions C50_pieces_are_valid_strings.
