(** UTF-8 round trips (no repo code). *)
From Coq Require Import String List NArith ZArith Bool Ascii Lia ZifyBool.
From Verif Require Import Base.
Import ListNotations.
Open Scope list_scope.
Ltac Zify.zify_post_hook ::= Z.to_euclidean_division_equations.

Lemma bval_asc n : (n < 256)%N -> bval (ascii_of_N n) = n.
Proof. intros H. unfold bval. now apply N_ascii_embedding. Qed.
Lemma bval_bound a : (bval a < 256)%N.
Proof. apply N_ascii_bounded. Qed.
Lemma asc_bval a : ascii_of_N (bval a) = a.
Proof. apply ascii_N_embedding. Qed.
Lemma asc_eq a n : n = bval a -> ascii_of_N n = a.
Proof. intros ->. apply asc_bval. Qed.

Ltac ift := cbv iota; rewrite ?bval_asc by lia; match goal with |- (if ?b then _ else _) = _ => replace b with true by lia; cbv iota end.
Ltac iff := cbv iota; rewrite ?bval_asc by lia; match goal with |- (if ?b then _ else _) = _ => replace b with false by lia; cbv iota end.
Lemma decode_char c s : is_scalar c = true ->
  utf8_decode (utf8_char c ++ s) = option_map (cons c) (utf8_decode s).
Proof.
  unfold is_scalar, utf8_char. intros Hs.
  destruct (N.ltb_spec c 128) as [H1|H1].
  { cbn [app utf8_decode]. rewrite bval_asc by lia. destruct (N.ltb_spec c 128); [reflexivity|lia]. }
  destruct (N.ltb_spec c 2048) as [H2|H2].
  { cbn [app utf8_decode]. unfold is_cont, in_rng. rewrite !bval_asc by lia.
    iff.
    ift.
    ift.
    f_equal. f_equal. lia. }
  destruct (N.ltb_spec c 65536) as [H3|H3].
  { cbn [app utf8_decode]. unfold is_cont, in_rng. rewrite !bval_asc by lia.
    iff.
    iff.
    ift.
    ift.
    f_equal. f_equal. lia. }
  cbn [app utf8_decode]. unfold is_cont, in_rng. rewrite !bval_asc by lia.
  iff.
  iff.
  iff.
  ift.
  ift.
  f_equal. f_equal. lia.
Qed.

Lemma decode_encode cs : Forall (fun c => is_scalar c = true) cs -> utf8_decode (utf8_encode cs) = Some cs.
Proof.
  induction 1 as [|c cs Hc Hcs IH]; [reflexivity|]. cbn [utf8_encode flat_map].
  rewrite decode_char by exact Hc. fold (utf8_encode cs). now rewrite IH.
Qed.

Lemma decode_inv s cs : utf8_decode s = Some cs -> Forall (fun c => is_scalar c = true) cs /\ utf8_encode cs = s.
Proof.
  remember (length s) as n eqn:Hn. revert s cs Hn.
  induction n as [n IH] using (well_founded_induction Wf_nat.lt_wf). intros s cs -> H.
  destruct s as [|a s]; [injection H as <-; now split|].
  assert (Ba := bval_bound a). cbn [utf8_decode] in H.
  assert (K : forall s' c chars, utf8_decode s' = Some chars -> (length s' < length (a :: s))%nat ->
            is_scalar c = true -> utf8_char c ++ s' = a :: s ->
            Forall (fun c => is_scalar c = true) (c :: chars) /\ utf8_encode (c :: chars) = a :: s).
  { intros s' c chars H1 H2 H3 H4. destruct (IH _ H2 s' chars eq_refl H1) as [H5 H6].
    split; [now constructor|]. cbn [utf8_encode flat_map]. fold (utf8_encode chars). now rewrite H6. }
  destruct (N.ltb_spec (bval a) 128) as [L1|L1].
  { destruct (utf8_decode s) as [r|] eqn:Hr; [|discriminate]. injection H as <-.
    apply (K s); [exact Hr|simpl; lia|unfold is_scalar; lia|].
    unfold utf8_char. destruct (N.ltb_spec (bval a) 128); [|lia]. now rewrite asc_bval. }
  destruct (in_rng 194 223 a) eqn:R2; unfold in_rng in R2.
  { destruct s as [|b s]; [discriminate|]. destruct (is_cont b) eqn:Cb; [|discriminate].
    unfold is_cont, in_rng in Cb. destruct (utf8_decode s) as [r|] eqn:Hr; [|discriminate]. injection H as <-.
    apply (K s); [exact Hr|simpl; lia|unfold is_scalar; lia|].
    unfold utf8_char. replace (N.ltb _ 128) with false by lia. replace (N.ltb _ 2048) with true by lia.
    cbn [app]. f_equal; [|f_equal]; apply asc_eq; lia. }
  destruct (in_rng 224 239 a) eqn:R3; unfold in_rng in R3.
  { destruct s as [|b [|c s]]; try discriminate.
    match type of H with (if ?x then _ else _) = _ => destruct x eqn:Cb end; [|discriminate].
    unfold is_cont, in_rng in Cb. destruct (utf8_decode s) as [r|] eqn:Hr; [|discriminate]. injection H as <-.
    apply (K s); [exact Hr|simpl; lia|unfold is_scalar; lia|].
    unfold utf8_char. replace (N.ltb _ 128) with false by lia. replace (N.ltb _ 2048) with false by lia.
    replace (N.ltb _ 65536) with true by lia.
    cbn [app]. f_equal; [|f_equal; [|f_equal]]; apply asc_eq; lia. }
  destruct (in_rng 240 244 a) eqn:R4; unfold in_rng in R4; [|discriminate].
  destruct s as [|b [|c [|d s]]]; try discriminate.
  match type of H with (if ?x then _ else _) = _ => destruct x eqn:Cb end; [|discriminate].
  unfold is_cont, in_rng in Cb. destruct (utf8_decode s) as [r|] eqn:Hr; [|discriminate]. injection H as <-.
  apply (K s); [exact Hr|simpl; lia|unfold is_scalar; lia|].
  unfold utf8_char. replace (N.ltb _ 128) with false by lia. replace (N.ltb _ 2048) with false by lia.
  replace (N.ltb _ 65536) with false by lia.
  cbn [app]. f_equal; [|f_equal; [|f_equal; [|f_equal]]]; apply asc_eq; lia.
Qed.

Lemma decode_app_chars s cs t : utf8_decode s = Some cs ->
  utf8_decode (s ++ t) = option_map (app cs) (utf8_decode t).
Proof.
  intros H. apply decode_inv in H as [Hf <-]. induction Hf as [|c cs Hc Hcs IH].
  - simpl. now destruct (utf8_decode t).
  - cbn [utf8_encode flat_map]. fold (utf8_encode cs). rewrite <- app_assoc, decode_char by exact Hc.
    rewrite IH. now destruct (utf8_decode t).
Qed.
Lemma encode_app a b : utf8_encode (a ++ b) = utf8_encode a ++ utf8_encode b.
Proof. apply flat_map_app. Qed.
Lemma valid_encode cs : Forall (fun c => is_scalar c = true) cs -> utf8_valid (utf8_encode cs) = true.
Proof. intros H. unfold utf8_valid. now rewrite decode_encode. Qed.
Lemma utf8_char_nonempty c : utf8_char c <> [].
Proof. unfold utf8_char. now destruct (N.ltb c 128), (N.ltb c 2048), (N.ltb c 65536). Qed.
Lemma valid_app s t : utf8_valid s = true -> utf8_valid t = true -> utf8_valid (s ++ t) = true.
Proof.
  unfold utf8_valid. destruct (utf8_decode s) as [a|] eqn:Ha; [|discriminate].
  rewrite (decode_app_chars _ _ _ Ha). now destruct (utf8_decode t).
Qed.
