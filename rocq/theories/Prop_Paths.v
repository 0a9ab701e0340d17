(** C27, C28, C29, C73, C74. *)
From Coq Require Import String List NArith ZArith Bool Ascii Lia.
From Verif Require Import Base Value Headers AttrPath Ctx CelProps CelEval P_Frame P_Utf8 Config Legacy Blueprint Exec Factory Demo.
Import ListNotations.
Open Scope list_scope.

(** ** C27 *)
Definition no_char (a : ascii) (s : text) : Prop := ~ In a s.

Lemma parse_from_show tok s rest :
  no_char backslash s ->
  path_parse_from tok (esc_dots s ++ rest) = path_parse_from (tok ++ s) rest.
Proof.
  revert tok. induction s as [|a s IH]; intros tok H; simpl; [now rewrite app_nil_r|].
  assert (Hs : no_char backslash s) by (intro Hi; apply H; now right).
  destruct (Ascii.eqb_spec a dot) as [->|Hd].
  - simpl. rewrite IH by exact Hs. now rewrite <- app_assoc.
  - simpl. destruct (Ascii.eqb_spec a dot); [easy|].
    destruct (Ascii.eqb_spec a backslash) as [->|]; [exfalso; apply H; now left|].
    rewrite IH by exact Hs. now rewrite <- app_assoc.
Qed.
Lemma parse_show_from p : p <> [] -> Forall (no_char backslash) p -> path_parse (path_show p) = p.
Proof.
  intros Hne Hf. unfold path_parse, path_show.
  destruct p as [|s p]; [easy|]. clear Hne.
  enough (H : forall s p, no_char backslash s -> Forall (no_char backslash) p ->
                path_parse_from [] (join [dot] (map esc_dots (s :: p))) = s :: p)
    by (inversion Hf; now apply H).
  clear. intros s p. revert s. induction p as [|q p IH]; intros s Hs Hp.
  - cbn [map join]. rewrite <- (app_nil_r (esc_dots s)), parse_from_show by exact Hs. reflexivity.
  - inversion Hp; subst. cbn [map]. change (join [dot] (esc_dots s :: esc_dots q :: map esc_dots p))
      with (esc_dots s ++ [dot] ++ join [dot] (map esc_dots (q :: p))).
    rewrite parse_from_show by exact Hs. simpl. f_equal. now apply IH.
Qed.

(** Full statement (false): [forall p, p <> [] -> path_parse (path_show p) = p].
    Missing: segments containing a backslash. *)
Theorem C27_path_round_trip_partial : forall p,
  p <> [] -> (forall s, In s p -> ~ In backslash s) -> path_parse (path_show p) = p.
Proof. intros p Hne H. apply parse_show_from; [exact Hne|]. now apply Forall_forall. Qed.
Print Assumptions C27_path_round_trip_partial.
Example C27_case :
  path_parse (path_show [tx "request"; tx "headers"; tx "x.y"; []]) = [tx "request"; tx "headers"; tx "x.y"; []].
Proof. reflexivity. Qed.

Theorem C27_path_round_trip_refuted : exists p, p <> [] /\ path_parse (path_show p) <> p.
Proof. exists [tx "a\b"]. split; [discriminate|]. vm_compute. discriminate. Qed.

(** Parsing always gives at least one segment, and is undone by printing when the text
    has no backslash. *)
Lemma parse_show_id s : forall tok, no_char backslash s -> no_char dot tok ->
  path_show (path_parse_from tok s) = esc_dots tok ++ s.
Proof.
  assert (E0 : forall t, no_char dot t -> esc_dots t = t).
  { induction t as [|a t IH]; intros H; simpl; [reflexivity|].
    destruct (Ascii.eqb_spec a dot) as [->|]; [exfalso; apply H; now left|].
    rewrite IH; [reflexivity|]. intro Hi. apply H. now right. }
  induction s as [|a s IH]; intros tok Hs Ht; simpl.
  - unfold path_show. simpl. now rewrite app_nil_r.
  - assert (Hs' : no_char backslash s) by (intro Hi; apply Hs; now right).
    destruct (Ascii.eqb_spec a dot) as [->|Hd].
    + unfold path_show. cbn [map join]. destruct (map esc_dots (path_parse_from [] s)) eqn:Hm.
      * destruct s as [|b s]; [discriminate|]. simpl in Hm.
        assert (Hne : forall t x, map esc_dots (path_parse_from t x) <> []).
        { clear. intros t x. remember (length x) as n eqn:Hn. revert t x Hn.
          induction n as [n IHn] using (well_founded_induction Wf_nat.lt_wf). intros t x ->.
          destruct x as [|c x]; simpl; [discriminate|]. destruct (Ascii.eqb c dot); [discriminate|].
          destruct (Ascii.eqb c backslash); [|eapply IHn; [|reflexivity]; simpl; lia].
          destruct x as [|d x]; [discriminate|]. eapply IHn; [|reflexivity]; simpl; lia. }
        exfalso. apply (Hne [] (b :: s)). exact Hm.
      * rewrite <- Hm. specialize (IH [] Hs' (fun H => H)). unfold path_show in IH. rewrite IH. reflexivity.
    + destruct (Ascii.eqb_spec a backslash) as [->|]; [exfalso; apply Hs; now left|].
      rewrite IH; [|exact Hs'|].
      * rewrite !E0; [|exact Ht|]. { now rewrite <- app_assoc. }
        intros Hi. apply in_app_or in Hi as [Hi|[->|[]]]; [now apply Ht|easy].
      * intros Hi. apply in_app_or in Hi as [Hi|[->|[]]]; [now apply Ht|easy].
Qed.
Theorem C27_text_round_trip_partial : forall s, ~ In backslash s -> path_show (path_parse s) = s.
Proof. intros s H. unfold path_parse. rewrite parse_show_id; [reflexivity|exact H|easy]. Qed.
Print Assumptions C27_text_round_trip_partial.

(** What a text stands for: dots separate the segments, a backslash takes the character behind it as it is, and one at the
    very end is dropped. *)
Inductive stands_for : text -> path -> Prop :=
| sf_end : stands_for [] [[]]
| sf_dot s p : stands_for s p -> stands_for (dot :: s) ([] :: p)
| sf_char a s t p : a <> dot -> a <> backslash -> stands_for s (t :: p) -> stands_for (a :: s) ((a :: t) :: p)
| sf_escaped a s t p : stands_for s (t :: p) -> stands_for (backslash :: a :: s) ((a :: t) :: p)
| sf_last : stands_for [backslash] [[]].
Theorem C27_what_a_text_stands_for : forall s p, path_parse s = p <-> stands_for s p.
Proof.
  assert (P : forall n s, length s <= n -> exists t p, stands_for s (t :: p) /\ forall tok, path_parse_from tok s = (tok ++ t) :: p).
  { induction n as [|n IH]; intros [|a s] Hn; cbn in Hn; try lia; try (exists [], []; split; [constructor|intros tok; now rewrite app_nil_r]).
    cbn [path_parse_from]. destruct (Ascii.eqb_spec a dot) as [->|Hd].
    - destruct (IH s) as (t & p & H1 & H2); [lia|]. exists [], (t :: p). split; [now constructor|]. intros tok. now rewrite H2, app_nil_r.
    - destruct (Ascii.eqb_spec a backslash) as [->|Hb].
      + destruct s as [|d s]; [exists [], []; split; [constructor|intros tok; now rewrite app_nil_r]|]. cbn in Hn.
        destruct (IH s) as (t & p & H1 & H2); [lia|]. exists (d :: t), p. split; [now constructor|]. intros tok. now rewrite H2, <- app_assoc.
      + destruct (IH s) as (t & p & H1 & H2); [lia|]. exists (a :: t), p. split; [now constructor|]. intros tok. now rewrite H2, <- app_assoc. }
  intros s p. destruct (P (length s) s (le_n _)) as (t & q & H1 & H2). unfold path_parse. rewrite H2. cbn [app]. split; [now intros <-|].
  clear H2 P. intros H. revert H1. assert (G : forall r, stands_for s r -> r = p); [|apply G]. clear t q. induction H as [|s p H IH|a s t p Ha Hb H IH|a s t p H IH|]; intros r Hr.
  - now inversion Hr.
  - inversion Hr; subst; try easy. f_equal. now apply IH.
  - inversion Hr; subst; try easy. match goal with H : stands_for s (_ :: _) |- _ => apply IH in H end. congruence.
  - inversion Hr; subst; try easy. match goal with H : stands_for s (_ :: _) |- _ => apply IH in H end. congruence.
  - inversion Hr; subst; easy.
Qed.
Print Assumptions C27_what_a_text_stands_for.
Example C27_stands_for_ex : stands_for (tx "a\.b.c\") [tx "a.b"; tx "c"] /\ path_parse (tx "a\.b.c\") = [tx "a.b"; tx "c"].
Proof. split; [apply C27_what_a_text_stands_for|]; reflexivity. Qed.

(** ** C28 *)
(** Full statement (false): the same for all [p <> q]. Missing: backslashes. *)
Definition plain (p : path) : Prop := p <> [] /\ forall s, In s p -> ~ In backslash s.

Lemma path_show_inj p q : plain p -> plain q -> path_show p = path_show q -> p = q.
Proof.
  intros [Hp Hp'] [Hq Hq'] H. rewrite <- (C27_path_round_trip_partial p), <- (C27_path_round_trip_partial q) by assumption.
  now rewrite H.
Qed.

(** Reading or writing one attribute never changes what is read for another one. *)
Theorem C28_distinct_paths_distinct_entries_partial : forall E p q v c,
  plain p -> plain q -> p <> q ->
  cache_get q (cache_put p v c) = cache_get q c /\
  cache_get q (snd (read_attr E p c)) = cache_get q c.
Proof.
  intros E p q v c Hp Hq Hne.
  assert (K : forall v c, cache_get q (cache_put p v c) = cache_get q c).
  { intros v' c'. unfold cache_get, cache_put. simpl. apply aget_aset_other; [apply text_eqb_eq|].
    intros H. apply Hne. symmetry. now apply path_show_inj. }
  split; [apply K|]. unfold read_attr. destruct (cache_get p c); [reflexivity|].
  destruct (fetch E (c_log c) p); simpl; [apply K|reflexivity|reflexivity].
Qed.
Print Assumptions C28_distinct_paths_distinct_entries_partial.
Example C28_case : plain [tx "a"; tx "b"] /\ plain [tx "a.b"] /\ [tx "a"; tx "b"] <> [tx "a.b"].
Proof. unfold plain. repeat split; try discriminate; simpl; intuition (subst; simpl in *; intuition discriminate). Qed.

(** Two attributes, the host knows a value for each; after the first is read, reading the
    second returns the first one's value. *)
Theorem C28_shared_entry_refuted : exists E p q vp vq c,
  p <> q /\ h_prop E [] p = HOk (Some vp) /\ h_prop E [] q = HOk (Some vq) /\ vp <> vq /\
  fst (read_attr E q (ctx0 [])) = RAvail (CBytes (Some vq)) /\
  snd (read_attr E p (ctx0 [])) = c /\
  fst (read_attr E q c) = RAvail (CBytes (Some vp)).
Proof.
  exists (e_prop E0 (fun _ p => HOk (Some (if path_eqb p [tx "m"; tx "a\"; tx "b"] then tx "1" else tx "2")))),
         [tx "m"; tx "a\"; tx "b"], [tx "m"; tx "a.b"], (tx "1"), (tx "2").
  eexists. repeat split; try discriminate.
Qed.
Print Assumptions C28_shared_entry_refuted.

(** ** C29 *)
Lemma before_char_app c a b : ~ In c a -> before_char c (a ++ c :: b) = a.
Proof.
  induction a as [|x a IH]; intros H; simpl.
  - now rewrite Ascii.eqb_refl.
  - destruct (Ascii.eqb_spec x c) as [->|]; [exfalso; apply H; now left|].
    rewrite IH; [reflexivity|]. intro Hi. apply H. now right.
Qed.
Lemma before_char_none c a : ~ In c a -> before_char c a = a.
Proof.
  induction a as [|x a IH]; intros H; simpl; [reflexivity|].
  destruct (Ascii.eqb_spec x c) as [->|]; [exfalso; apply H; now left|].
  rewrite IH; [reflexivity|]. intro Hi. apply H. now right.
Qed.

(** Full statement (false): for every [ip], also with colons. *)
Theorem C29_remote_address_partial : forall E l ip port,
  ~ In colon ip -> utf8_valid (ip ++ colon :: port) = true ->
  h_prop E l [tx "source"; tx "address"] = HOk (Some (ip ++ colon :: port)) ->
  fetch E l [tx "source"; tx "remote_address"] = HOk (CBytes (Some ip)).
Proof.
  intros E l ip port Hi Hu Hh. unfold fetch, remote_address.
  change (path_eqb [tx "source"; tx "remote_address"] p_req_headers) with false.
  change (path_eqb [tx "source"; tx "remote_address"] p_resp_headers) with false.
  change (path_eqb [tx "source"; tx "remote_address"] [tx "source"; tx "remote_address"]) with true.
  cbn iota. rewrite Hh. rewrite Hu. unfold strip_port. now rewrite before_char_app.
Qed.
Print Assumptions C29_remote_address_partial.
Example C29_case : strip_port (tx "10.1.2.3:8080") = tx "10.1.2.3".
Proof. reflexivity. Qed.
Theorem C29_remote_address_refuted : exists E l,
  h_prop E l [tx "source"; tx "address"] = HOk (Some (tx "[2001:db8::1]:443")) /\
  fetch E l [tx "source"; tx "remote_address"] = HOk (CBytes (Some (tx "[2001"))).
Proof.
  exists (e_prop E0 (fun _ _ => HOk (Some (tx "[2001:db8::1]:443")))), []. now vm_compute.
Qed.

(** ** C73 *)
(** Little-endian encoding of a number in [k] bytes *)
Fixpoint le_bytes (k : nat) (n : N) : text :=
  match k with
  | O => []
  | S k' => ascii_of_N (n mod 256) :: le_bytes k' (n / 256)
  end.

Lemma bval_ascii n : (n < 256)%N -> bval (ascii_of_N n) = n.
Proof. intros H. unfold bval. now apply N_ascii_embedding. Qed.
Lemma bval_lt a : (bval a < 256)%N.
Proof. apply N_ascii_bounded. Qed.
Lemma ascii_bval a : ascii_of_N (bval a) = a.
Proof. apply ascii_N_embedding. Qed.

Lemma le_N_bytes k : forall n, (n < 256 ^ N.of_nat k)%N -> le_N (le_bytes k n) = n.
Proof.
  induction k as [|k IH]; intros n H.
  - simpl in *. change (256 ^ 0)%N with 1%N in H. lia.
  - cbn [le_bytes le_N]. rewrite bval_ascii by (apply N.mod_lt; discriminate).
    rewrite Nnat.Nat2N.inj_succ, N.pow_succ_r' in H.
    rewrite IH by (apply N.div_lt_upper_bound; [discriminate|exact H]).
    rewrite (N.div_mod n 256) at 3 by discriminate. lia.
Qed.
Lemma le_bytes_N bs : le_bytes (length bs) (le_N bs) = bs.
Proof.
  induction bs as [|b bs IH]; [reflexivity|]. cbn [length le_bytes le_N].
  assert (Hb := bval_lt b).
  replace (bval b + 256 * le_N bs)%N with (le_N bs * 256 + bval b)%N by lia.
  rewrite N.add_comm, N.mod_add, N.mod_small, ascii_bval by lia.
  rewrite N.div_add, N.div_small, N.add_0_l, IH by lia. reflexivity.
Qed.
Lemma le_N_bound bs : (le_N bs < 256 ^ N.of_nat (length bs))%N.
Proof.
  induction bs as [|b bs IH]; [reflexivity|]. cbn [le_N length].
  rewrite Nnat.Nat2N.inj_succ, N.pow_succ_r'. assert (Hb := bval_lt b). lia.
Qed.

Theorem C73_u64_decoded_exactly : forall bs n,
  parse_u64 bs = Some n <-> (n < 2 ^ 64)%N /\ bs = le_bytes 8 n.
Proof.
  intros bs n. unfold parse_u64. split.
  - destruct (Nat.eqb_spec (length bs) 8) as [H|]; [|discriminate]. intros [= <-].
    split; [|rewrite <- H; symmetry; apply le_bytes_N].
    assert (K := le_N_bound bs). rewrite H in K. exact K.
  - intros [Hn ->]. change (length (le_bytes 8 n)) with 8. rewrite Nat.eqb_refl. now rewrite le_N_bytes.
Qed.
Print Assumptions C73_u64_decoded_exactly.

Theorem C73_i64_decoded_exactly : forall bs z,
  parse_i64 bs = Some z <->
  (- 2 ^ 63 <= z < 2 ^ 63)%Z /\ bs = le_bytes 8 (Z.to_N (z mod 2 ^ 64)).
Proof.
  intros bs z. unfold parse_i64. split.
  - destruct (Nat.eqb_spec (length bs) 8) as [H|]; [|discriminate].
    assert (K := le_N_bound bs). rewrite H in K. change (256 ^ N.of_nat 8)%N with 18446744073709551616%N in K.
    change (2 ^ 63)%Z with 9223372036854775808%Z. change (2 ^ 64)%Z with 18446744073709551616%Z.
    intros [= <-].
    assert (L : le_bytes 8 (le_N bs) = bs) by (rewrite <- H; apply le_bytes_N).
    destruct (N.ltb_spec (le_N bs) 9223372036854775808) as [Hl|Hl].
    + split; [lia|]. rewrite Z.mod_small by lia. now rewrite N2Z.id.
    + split; [lia|]. replace ((Z.of_N (le_N bs) - 18446744073709551616) mod 18446744073709551616)%Z with (Z.of_N (le_N bs)).
      { now rewrite N2Z.id. }
      apply (Z.mod_unique_pos _ _ (-1)); lia.
  - intros [Hz ->]. change (length (le_bytes 8 _)) with 8. rewrite Nat.eqb_refl.
    change (2 ^ 63)%Z with 9223372036854775808%Z in *. change (2 ^ 64)%Z with 18446744073709551616%Z in *.
    assert (B := Z.mod_pos_bound z 18446744073709551616 eq_refl).
    rewrite le_N_bytes by (change (256 ^ N.of_nat 8)%N with 18446744073709551616%N; lia).
    f_equal. destruct (N.ltb_spec (Z.to_N (z mod 18446744073709551616)) 9223372036854775808) as [Hl|Hl];
      rewrite Z2N.id by lia.
    + destruct (Z_lt_dec z 0); [|now rewrite Z.mod_small by lia].
      exfalso. rewrite <- (Z.mod_unique_pos z 18446744073709551616 (-1) (z + 18446744073709551616)) in Hl; lia.
    + destruct (Z_lt_dec z 0).
      * rewrite <- (Z.mod_unique_pos z 18446744073709551616 (-1) (z + 18446744073709551616)); lia.
      * exfalso. rewrite Z.mod_small in Hl; lia.
Qed.
Print Assumptions C73_i64_decoded_exactly.
Example C73_case : parse_i64 (le_bytes 8 (Z.to_N ((-5) mod 2 ^ 64))) = Some (-5)%Z /\ parse_i64 (le_bytes 4 5) = None.
Proof. vm_compute. easy. Qed.

(** Timestamps are the same 8 bytes; booleans one byte, of which only the lowest bit counts. *)
Theorem C73_bool_decoded : forall bs b,
  parse_bool bs = Some b <-> exists n, (n < 256)%N /\ bs = [ascii_of_N n] /\ b = N.odd n.
Proof.
  intros bs b. unfold parse_bool. split.
  - destruct bs as [|a [|]]; try discriminate. intros [= <-]. exists (bval a).
    split; [apply bval_lt|]. now rewrite ascii_bval.
  - intros (n & Hn & -> & ->). now rewrite bval_ascii.
Qed.
Print Assumptions C73_bool_decoded.

(** What an expression sees of a typed attribute is the decoded value, and an attribute
    that does not decode is an error, not a wrong value. *)
Theorem C73_attribute_value : forall E a c v c',
  attr_get E a c = (RAvail (VInt v), c') -> at_type a = Some TInt ->
  exists bs, fst (read_attr E (at_path a) c) = RAvail (CBytes (Some bs)) /\
             (- 2 ^ 63 <= v < 2 ^ 63)%Z /\ bs = le_bytes 8 (Z.to_N (v mod 2 ^ 64)).
Proof.
  intros E a c v c' H Ht. unfold attr_get in H. destruct (read_attr E (at_path a) c) as [[|w|] c1]; try discriminate.
  rewrite Ht in H. cbn [decode] in H. unfold decode_with in H.
  destruct w as [[bs|]|h]; try discriminate.
  destruct (parse_i64 bs) as [z|] eqn:Hp; try discriminate. simpl in H. injection H as -> _.
  apply C73_i64_decoded_exactly in Hp. exists bs. simpl. tauto.
Qed.
Print Assumptions C73_attribute_value.

(** ** C74 *)
(** On characters: the key is split at a dot which has something in front and an
    alphabetic character somewhere behind it, and is the last such; or not at all. *)
Lemma last_idx_spec {A} (f : A -> bool) l :
  match last_idx f l with
  | Some i => exists a b x, l = a ++ x :: b /\ length a = i /\ f x = true /\ forallb (fun y => negb (f y)) b = true
  | None => forallb (fun y => negb (f y)) l = true
  end.
Proof.
  induction l as [|y l IH]; simpl; [reflexivity|].
  destruct (last_idx f l) as [i|].
  - destruct IH as (a & b & x & -> & <- & Hx & Hb). exists (y :: a), b, x. now repeat split.
  - destruct (f y) eqn:Hy; simpl; [|exact IH]. exists [], l, y. now repeat split.
Qed.

Definition has_alpha (alpha : N -> bool) (l : list N) : Prop := exists x, In x l /\ alpha x = true.

Theorem C74_key_split : forall alpha cs,
  match domain_field_chars alpha cs with
  | Some (d, f) => cs = d ++ 46%N :: f /\ d <> [] /\ has_alpha alpha f /\
                   (forall f1 f2, f = f1 ++ 46%N :: f2 -> ~ has_alpha alpha f2)
  | None => forall d f, cs = d ++ 46%N :: f -> d <> [] -> alpha 46%N = false -> has_alpha alpha f ->
                        exists f', cs = 46%N :: f' /\ forall f1 f2, f' = f1 ++ 46%N :: f2 -> ~ has_alpha alpha f2
  end.
Proof.
  intros alpha cs. unfold domain_field_chars.
  assert (L := last_idx_spec alpha cs).
  assert (NA : forall b x, forallb (fun y => negb (alpha y)) b = true -> In x b -> alpha x = true -> False).
  { intros b x Hb Hx Ha. rewrite forallb_forall in Hb. apply Hb in Hx. now rewrite Ha in Hx. }
  destruct (last_idx alpha cs) as [i|] eqn:Hi.
  2:{ simpl. intros d f -> _ _ (x & Hx & Ha). exfalso. eapply NA; [exact L| |exact Ha].
      apply in_or_app. right. now right. }
  destruct L as (a & b & x & -> & Hlen & Hx & Hb).
  assert (Hf : firstn i (a ++ x :: b) = a).
  { rewrite firstn_app, firstn_all2 by lia. replace (i - length a)%nat with 0%nat by lia. simpl. apply app_nil_r. }
  rewrite Hf. assert (D := last_idx_spec (N.eqb 46) a).
  (* no dot of the text is followed by an alphabetic character unless it lies in [a] *)
  assert (Split : forall d f, a ++ x :: b = d ++ 46%N :: f -> has_alpha alpha f -> alpha 46%N = false ->
                    exists a2, a = d ++ 46%N :: a2 /\ f = a2 ++ x :: b).
  { intros d f He (y & Hy & Ha) H46. clear - He Hy Ha Hx Hb NA H46. revert d He.
    induction a as [|z a IH]; intros d He.
    - destruct d as [|e d]; simpl in He; injection He as He1 He2.
      + subst. congruence.
      + exfalso. subst b. eapply NA; [exact Hb| |exact Ha]. apply in_or_app. right. now right.
    - destruct d as [|e d]; simpl in He; injection He as He1 He2.
      + subst z f. now exists a.
      + destruct (IH d He2) as (a2 & -> & ->). exists a2. subst. now split. }
  destruct (last_idx (N.eqb 46) a) as [j|] eqn:Hj.
  - destruct D as (a1 & a2 & y & -> & Hlj & Hy & Ha2). apply N.eqb_eq in Hy. subst y.
    assert (Last : forall f1 f2, a2 ++ x :: b = f1 ++ 46%N :: f2 -> ~ has_alpha alpha f2).
    { intros f1 f2 He (y & Hy & Hay).
      assert (Nd : ~ In 46%N a2).
      { intros Hd. rewrite forallb_forall in Ha2. apply Ha2 in Hd. now rewrite N.eqb_refl in Hd. }
      clear - He Hy Hay Nd Hb NA. revert f1 He. induction a2 as [|z a2 IH]; intros f1 He.
      + destruct f1 as [|e f1]; simpl in He; injection He as He1 He2.
        * subst. eapply NA; [exact Hb|exact Hy|exact Hay].
        * subst b. eapply NA; [exact Hb| |exact Hay]. apply in_or_app. right. now right.
      + destruct f1 as [|e f1]; simpl in He; injection He as He1 He2.
        * apply Nd. now left.
        * apply (IH (fun H => Nd (or_intror H)) f1 He2). }
    destruct (Nat.eqb_spec j 0) as [Hj0|Hj0].
    + simpl. intros d f He Hd H46 Hal. destruct a1; [|simpl in Hlj; lia]. simpl in *.
      exists (a2 ++ x :: b). split; [reflexivity|exact Last].
    + destruct (Nat.eqb_spec j (length ((a1 ++ 46%N :: a2) ++ x :: b) - 1)) as [Hl|Hl].
      { exfalso. rewrite !app_length in Hl. simpl in Hl. lia. }
      cbn [orb]. rewrite <- app_assoc. simpl.
      rewrite firstn_app, firstn_all2 by lia. replace (j - length a1)%nat with 0%nat by lia.
      assert (Sk : skipn (S j) (a1 ++ 46%N :: a2 ++ x :: b) = a2 ++ x :: b).
      { rewrite skipn_app, skipn_all2 by lia. replace (S j - length a1)%nat with 1%nat by lia. reflexivity. }
      change (skipn (S j) (a1 ++ 46%N :: a2 ++ x :: b)) with (skipn (S j) (a1 ++ 46%N :: a2 ++ x :: b)) in Sk.
      simpl firstn. rewrite app_nil_r.
      match goal with |- context [match ?l with [] => _ | _ => _ end] => idtac | _ => idtac end.
      split; [|split; [|split]].
      * f_equal. f_equal. symmetry. exact Sk.
      * intros ->. simpl in Hlj. lia.
      * exists x. split; [|exact Hx]. change (In x (skipn (S j) (a1 ++ 46%N :: a2 ++ x :: b))). rewrite Sk.
        apply in_or_app. right. now left.
      * intros f1 f2. change (skipn (S j) (a1 ++ 46%N :: a2 ++ x :: b) = f1 ++ 46%N :: f2 -> ~ has_alpha alpha f2).
        rewrite Sk. apply Last.
  - intros d f He Hd H46 Hal. exfalso. destruct (Split d f He Hal H46) as (a2 & -> & _).
    rewrite forallb_forall in D. specialize (D 46%N). rewrite N.eqb_refl in D.
    discriminate D. apply in_or_app. right. now left.
Qed.
Print Assumptions C74_key_split.

(** For configuration keys, as texts: domain, dot and field make up the key. *)
Theorem C74_key_split_text : forall alpha name,
  let '(d, f) := domain_and_field alpha name in
  (d = [] /\ f = name) \/ (name = d ++ dot :: f /\ d <> [] /\ f <> []).
Proof.
  intros alpha name. unfold domain_and_field.
  destruct (utf8_decode name) as [cs|] eqn:Hd; [|now left].
  destruct (decode_inv _ _ Hd) as [_ He].
  assert (K := C74_key_split alpha cs).
  destruct (domain_field_chars alpha cs) as [[d f]|]; [|now left].
  destruct K as (Hs & Hne & (x & Hx & _) & _). right.
  split; [|split].
  - rewrite <- He, Hs, encode_app. reflexivity.
  - destruct d as [|y d]; [easy|]. cbn. assert (N := utf8_char_nonempty y).
    destruct (utf8_char y); [easy|discriminate].
  - destruct f as [|y f]; [easy|]. cbn. assert (N := utf8_char_nonempty y).
    destruct (utf8_char y); [easy|discriminate].
Qed.
Print Assumptions C74_key_split_text.
Example C74_case :
  let alpha c := (N.leb 97 c && N.leb c 122)%bool in
  domain_and_field alpha (tx "metrics.labels.user") = (tx "metrics.labels", tx "user") /\
  domain_and_field alpha (tx "a.b.9") = (tx "a", tx "b.9") /\ domain_and_field alpha (tx ".x") = ([], tx ".x") /\
  domain_and_field alpha (tx "a.b.9c.1") = (tx "a.b", tx "9c.1").
Proof. vm_compute. easy. Qed.
