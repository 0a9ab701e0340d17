(** A reader for the protobuf wire format, written from the specification and independent of
    Wire.v, and the facts that connect the two. *)
From Coq Require Import String Ascii List NArith ZArith Bool Lia Arith ZifyN ZifyNat ZifyBool.
From Verif Require Import Base P_Utf8 Wire.
Import ListNotations.
Open Scope list_scope.

(** * Specification *)
(** seven bits per byte, least significant first; the top bit says that more bytes follow *)
Fixpoint read_varint (s : text) : option (N * text) :=
  match s with
  | [] => None
  | a :: s' =>
      if N.ltb (bval a) 128 then Some (bval a, s')
      else match read_varint s' with
           | Some (x, r) => Some (bval a - 128 + 128 * x, r)%N
           | None => None
           end
  end.
Fixpoint read_le (k : nat) (s : text) : option (N * text) :=
  match k, s with
  | O, _ => Some (0%N, s)
  | S k', a :: s' => match read_le k' s' with Some (x, r) => Some (bval a + 256 * x, r)%N | None => None end
  | S _, [] => None
  end.
Definition read_len (s : text) : option (text * text) :=
  match read_varint s with
  | Some (n, r) => if N.leb n (N.of_nat (List.length r)) then Some (firstn (N.to_nat n) r, skipn (N.to_nat n) r) else None
  | None => None
  end.

(** what a field may hold *)
Inductive wv := WVar (x : N) | WF64 (x : N) | WLen (s : text) | WF32 (x : N).
Definition read_content (wt : N) (s : text) : option (wv * text) :=
  if N.eqb wt 0 then option_map (fun p => (WVar (fst p), snd p)) (read_varint s)
  else if N.eqb wt 1 then option_map (fun p => (WF64 (fst p), snd p)) (read_le 8 s)
  else if N.eqb wt 2 then option_map (fun p => (WLen (fst p), snd p)) (read_len s)
  else if N.eqb wt 5 then option_map (fun p => (WF32 (fst p), snd p)) (read_le 4 s)
  else None.
Definition read_field (s : text) : option (N * wv * text) :=
  match read_varint s with
  | Some (t, r) => if N.ltb t 8 then None
                   else match read_content (t mod 8) r with Some (w, r') => Some ((t / 8)%N, w, r') | None => None end
  | None => None
  end.
(** a message: fields one after the other.  The fuel is never used up, each field has a byte. *)
Fixpoint fields_go (fuel : nat) (s : text) : option (list (N * wv)) :=
  match s, fuel with
  | [], _ => Some []
  | _, O => None
  | _, S f => match read_field s with Some (n, w, r) => option_map (cons (n, w)) (fields_go f r) | None => None end
  end.
Definition fields (s : text) : option (list (N * wv)) := fields_go (List.length s) s.

(** * Facts *)
Lemma read_varint_shorter s : forall x r, read_varint s = Some (x, r) -> List.length r < List.length s.
Proof.
  induction s as [|a s IH]; intros x r; [discriminate|]. cbn [read_varint]. destruct (bval a <? 128)%N; [intros [= _ <-]; cbn; lia|].
  destruct (read_varint s) as [[y r']|] eqn:Hr; [|discriminate]. intros [= _ <-]. specialize (IH _ _ eq_refl). cbn. lia.
Qed.
Lemma read_le_shorter k : forall s x r, read_le k s = Some (x, r) -> List.length r <= List.length s.
Proof.
  induction k as [|k IH]; intros s x r; cbn [read_le]; [intros [= _ <-]; lia|]. destruct s as [|a s]; [discriminate|].
  destruct (read_le k s) as [[y r']|] eqn:Hr; [|discriminate]. intros [= _ <-]. apply IH in Hr. cbn. lia.
Qed.
Lemma read_content_shorter wt s w r : read_content wt s = Some (w, r) -> List.length r <= List.length s.
Proof.
  unfold read_content. destruct (N.eqb wt 0); [|destruct (N.eqb wt 1); [|destruct (N.eqb wt 2); [|destruct (N.eqb wt 5); [|discriminate]]]].
  - destruct (read_varint s) as [[x r']|] eqn:H; [|discriminate]. intros [= _ <-]. apply read_varint_shorter in H. cbn. lia.
  - destruct (read_le 8 s) as [[x r']|] eqn:H; [|discriminate]. intros [= _ <-]. apply read_le_shorter in H. exact H.
  - unfold read_len. destruct (read_varint s) as [[x r']|] eqn:H; [|discriminate]. destruct (N.leb x _) eqn:Hl; [|discriminate]. intros [= _ <-].
    apply read_varint_shorter in H. cbn. rewrite skipn_length. lia.
  - destruct (read_le 4 s) as [[x r']|] eqn:H; [|discriminate]. intros [= _ <-]. apply read_le_shorter in H. exact H.
Qed.
Lemma read_field_shorter s n w r : read_field s = Some (n, w, r) -> List.length r < List.length s.
Proof.
  unfold read_field. destruct (read_varint s) as [[t r1]|] eqn:H; [|discriminate]. destruct (t <? 8)%N; [discriminate|].
  destruct (read_content _ r1) as [[w' r2]|] eqn:H2; [|discriminate]. intros [= _ _ <-]. apply read_varint_shorter in H. apply read_content_shorter in H2. lia.
Qed.
Lemma fields_enough f : forall s g, List.length s <= f -> List.length s <= g -> fields_go f s = fields_go g s.
Proof.
  induction f as [|f IH]; intros [|a s] [|g] Hf Hg; try reflexivity; try (cbn in *; lia). cbn [fields_go].
  destruct (read_field (a :: s)) as [[[n w] r]|] eqn:H; [|reflexivity]. apply read_field_shorter in H. cbn in *. rewrite (IH r g); [reflexivity|lia|lia].
Qed.
Lemma fields_cons s n w r : read_field s = Some (n, w, r) -> fields s = option_map (cons (n, w)) (fields r).
Proof.
  intros H. pose proof (read_field_shorter _ _ _ _ H) as Hl. unfold fields. destruct s as [|a s]; [discriminate|]. cbn [List.length fields_go].
  rewrite H. f_equal. apply fields_enough; [cbn in Hl; lia|lia].
Qed.
Lemma fields_nil : fields [] = Some []. Proof. reflexivity. Qed.

Lemma size_bound x : (x < 2 ^ N.of_nat (N.size_nat x))%N.
Proof.
  destruct x as [|p]; [reflexivity|]. unfold N.size_nat. induction p as [p IH|p IH|]; [| |reflexivity];
    cbn [Pos.size_nat]; rewrite Nat2N.inj_succ, N.pow_succ_r'; lia.
Qed.
Lemma read_varint_go f : forall x r, (x < 2 ^ N.of_nat f \/ x < 128)%N -> read_varint (varint_go f x ++ r) = Some (x, r).
Proof.
  induction f as [|f IH]; intros x r H; cbn [varint_go].
  - assert (x < 128)%N by (cbn in H; lia). cbn [app read_varint]. rewrite bval_asc by lia. destruct (N.ltb_spec x 128); [reflexivity|lia].
  - destruct (N.ltb_spec x 128) as [Hx|Hx].
    + cbn [app read_varint]. rewrite bval_asc by lia. destruct (N.ltb_spec x 128); [reflexivity|lia].
    + pose proof (N.mod_upper_bound x 128 ltac:(lia)) as Hm. pose proof (N.div_mod' x 128) as Hd.
      cbn [app read_varint]. rewrite bval_asc by lia. destruct (N.ltb_spec (128 + x mod 128) 128); [lia|].
      rewrite IH; [f_equal; f_equal; lia|]. destruct H as [H|H]; [|lia]. left. rewrite Nat2N.inj_succ, N.pow_succ_r' in H.
      apply N.div_lt_upper_bound; lia.
Qed.
Lemma read_varint_varint x r : read_varint (varint x ++ r) = Some (x, r).
Proof. apply read_varint_go. left. apply size_bound. Qed.
Lemma read_le_bytes k : forall x r, (x < 256 ^ N.of_nat k)%N -> read_le k (le_bytes k x ++ r) = Some (x, r).
Proof.
  induction k as [|k IH]; intros x r H; [cbn in *; f_equal; f_equal; lia|]. cbn [le_bytes app read_le].
  pose proof (N.mod_upper_bound x 256 ltac:(lia)) as Hm. pose proof (N.div_mod' x 256) as Hd. rewrite Nat2N.inj_succ, N.pow_succ_r' in H.
  rewrite IH by (apply N.div_lt_upper_bound; lia). rewrite bval_asc by lia. f_equal. f_equal. lia.
Qed.
Lemma read_tag n wt r : (0 < n)%N -> (wt < 8)%N -> forall w r', read_content wt r = Some (w, r') -> read_field (tag n wt ++ r) = Some (n, w, r').
Proof.
  intros Hn Hw w r' Hc. unfold read_field, tag. rewrite read_varint_varint. destruct (N.ltb_spec (n * 8 + wt) 8); [lia|].
  replace ((n * 8 + wt) mod 8)%N with wt by (rewrite N.add_comm, N.mod_add by lia; now rewrite N.mod_small).
  replace ((n * 8 + wt) / 8)%N with n by (rewrite N.add_comm, N.div_add by lia; rewrite N.div_small by exact Hw; reflexivity). now rewrite Hc.
Qed.
Lemma fields_var n x r : (0 < n)%N -> fields (var_field n x ++ r) = option_map (cons (n, WVar x)) (fields r).
Proof.
  intros Hn. apply fields_cons. unfold var_field. rewrite <- app_assoc. apply read_tag; [exact Hn|lia|]. unfold read_content. cbn [N.eqb]. now rewrite read_varint_varint.
Qed.
Lemma fields_f64 n x r : (0 < n)%N -> (x < 2 ^ 64)%N -> fields (f64_field n x ++ r) = option_map (cons (n, WF64 x)) (fields r).
Proof.
  intros Hn Hx. apply fields_cons. unfold f64_field. rewrite <- app_assoc. apply read_tag; [exact Hn|lia|]. unfold read_content. cbn [N.eqb Pos.eqb]. rewrite read_le_bytes; [reflexivity|exact Hx].
Qed.
Lemma fields_f32 n x r : (0 < n)%N -> (x < 2 ^ 32)%N -> fields (f32_field n x ++ r) = option_map (cons (n, WF32 x)) (fields r).
Proof.
  intros Hn Hx. apply fields_cons. unfold f32_field. rewrite <- app_assoc. apply read_tag; [exact Hn|lia|]. unfold read_content. cbn [N.eqb Pos.eqb]. rewrite read_le_bytes; [reflexivity|exact Hx].
Qed.
Lemma read_len_len s r : read_len (varint (N.of_nat (List.length s)) ++ s ++ r) = Some (s, r).
Proof.
  unfold read_len. rewrite read_varint_varint. destruct (N.leb_spec (N.of_nat (List.length s)) (N.of_nat (List.length (s ++ r)))) as [H|H]; [|rewrite app_length in H; lia].
  rewrite Nat2N.id. rewrite firstn_app, firstn_all, Nat.sub_diag, skipn_app, skipn_all, Nat.sub_diag. cbn [firstn skipn app]. now rewrite app_nil_r.
Qed.
Lemma fields_len n s r : (0 < n)%N -> fields (len_field n s ++ r) = option_map (cons (n, WLen s)) (fields r).
Proof.
  intros Hn. apply fields_cons. unfold len_field. rewrite <- !app_assoc. apply read_tag; [exact Hn|lia|]. unfold read_content. cbn [N.eqb Pos.eqb]. now rewrite read_len_len.
Qed.
Lemma fields_repeat {A} n (g : A -> text) l : (0 < n)%N -> fields (flat_map (fun x => len_field n (g x)) l) = Some (map (fun x => (n, WLen (g x))) l).
Proof. intros Hn. induction l as [|x l IH]; [reflexivity|]. cbn [flat_map map]. now rewrite fields_len, IH by exact Hn. Qed.
