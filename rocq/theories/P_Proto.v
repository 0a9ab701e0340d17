(** Facts about the wire format of service messages (Proto.v): what is written can be read. *)
From Coq Require Import String Ascii List NArith ZArith Bool Lia Arith Permutation ZifyN ZifyNat ZifyBool.
From Verif Require Import Base P_Utf8 Wire P_Wire Conv Prop_Conv Prop_Conv2 Proto.
Import ListNotations.
Open Scope list_scope.

(** * Numbers and fields *)
Definition small (s : text) : Prop := (N.of_nat (List.length s) < 2 ^ 64)%N.
Lemma small_app s r : small (s ++ r) -> small s /\ small r.
Proof. unfold small. rewrite app_length. lia. Qed.

Lemma get_varint_go f : forall k x r, (x < 2 ^ N.of_nat f \/ x < 128)%N -> (x < 128 ^ N.of_nat (S k))%N -> get_varint (S k) (varint_go f x ++ r) = Some (x, r).
Proof.
  induction f as [|f IH]; intros k x r H Hk; cbn [varint_go].
  - assert (x < 128)%N by (cbn in H; lia). cbn [app get_varint]. rewrite bval_asc by lia. destruct (N.ltb_spec x 128); [reflexivity|lia].
  - destruct (N.ltb_spec x 128) as [Hx|Hx].
    + cbn [app get_varint]. rewrite bval_asc by lia. destruct (N.ltb_spec x 128); [reflexivity|lia].
    + pose proof (N.mod_upper_bound x 128 ltac:(lia)) as Hm. pose proof (N.div_mod' x 128) as Hd.
      cbn [app get_varint]. rewrite bval_asc by lia. destruct (N.ltb_spec (128 + x mod 128) 128); [lia|].
      destruct k as [|k]; [change (128 ^ N.of_nat 1)%N with 128%N in Hk; lia|].
      rewrite IH; [f_equal; f_equal; lia| |].
      * destruct H as [H|H]; [|lia]. left. rewrite Nat2N.inj_succ, N.pow_succ_r' in H. apply N.div_lt_upper_bound; lia.
      * rewrite Nat2N.inj_succ, N.pow_succ_r' in Hk. apply N.div_lt_upper_bound; [lia|exact Hk].
Qed.
Lemma take_varint_varint x r : (x < 2 ^ 64)%N -> take_varint (varint x ++ r) = Some (x, r).
Proof.
  intros H. unfold take_varint, varint. rewrite get_varint_go.
  - change (Z.to_N two64) with (2 ^ 64)%N. destruct (N.ltb_spec x (2 ^ 64)); [reflexivity|lia].
  - left. apply size_bound.
  - change (128 ^ N.of_nat 10)%N with (2 ^ 70)%N. apply (N.lt_trans _ _ _ H). reflexivity.
Qed.
Lemma take_le_read k : forall s, take_le k s = read_le k s.
Proof. induction k as [|k IH]; intros s; [reflexivity|]. destruct s as [|a s]; [reflexivity|]. cbn [take_le read_le]. now rewrite IH. Qed.
Lemma take_le_bytes k x r : (x < 256 ^ N.of_nat k)%N -> take_le k (le_bytes k x ++ r) = Some (x, r).
Proof. rewrite take_le_read. apply read_le_bytes. Qed.
Lemma take_len_len s r : small s -> take_len (varint (N.of_nat (List.length s)) ++ s ++ r) = Some (s, r).
Proof.
  intros Hs. unfold take_len. rewrite take_varint_varint by exact Hs.
  destruct (N.leb_spec (N.of_nat (List.length s)) (N.of_nat (List.length (s ++ r)))) as [H|H]; [|rewrite app_length in H; lia].
  rewrite Nat2N.id. rewrite firstn_app, firstn_all, Nat.sub_diag, skipn_app, skipn_all, Nat.sub_diag. cbn [firstn skipn app]. now rewrite app_nil_r.
Qed.
Lemma get_varint_shorter k : forall s x r, get_varint k s = Some (x, r) -> List.length r < List.length s.
Proof.
  induction k as [|k IH]; intros [|a s] x r; try discriminate. cbn [get_varint]. destruct (bval a <? 128)%N; [intros [= _ <-]; cbn; lia|].
  destruct (get_varint k s) as [[y r']|] eqn:Hr; [|discriminate]. intros [= _ <-]. apply IH in Hr. cbn. lia.
Qed.
Lemma take_varint_shorter s x r : take_varint s = Some (x, r) -> List.length r < List.length s.
Proof. unfold take_varint. destruct (get_varint 10 s) as [[y r']|] eqn:H; [|discriminate]. destruct (y <? _)%N; [|discriminate]. intros [= _ <-]. now apply get_varint_shorter in H. Qed.
Lemma take_field_shorter s n c r : take_field s = Some (n, c, r) -> List.length r < List.length s.
Proof.
  unfold take_field. destruct (take_varint s) as [[t r1]|] eqn:H; [|discriminate]. destruct (_ || _)%bool; [discriminate|]. apply take_varint_shorter in H.
  destruct (N.eqb _ 0); [|destruct (N.eqb _ 1); [|destruct (N.eqb _ 2); [|destruct (N.eqb _ 5); [|discriminate]]]].
  - destruct (take_varint r1) as [[x r2]|] eqn:H1; [|discriminate]. intros [= _ _ <-]. apply take_varint_shorter in H1. cbn. lia.
  - destruct (take_le 8 r1) as [[x r2]|] eqn:H1; [|discriminate]. intros [= _ _ <-]. rewrite take_le_read in H1. apply read_le_shorter in H1. cbn. lia.
  - unfold take_len. destruct (take_varint r1) as [[x r2]|] eqn:H1; [|discriminate]. destruct (N.leb x _); [|discriminate]. intros [= _ _ <-]. apply take_varint_shorter in H1. cbn. rewrite skipn_length. lia.
  - destruct (take_le 4 r1) as [[x r2]|] eqn:H1; [|discriminate]. intros [= _ _ <-]. rewrite take_le_read in H1. apply read_le_shorter in H1. cbn. lia.
Qed.
Lemma take_fields_enough f : forall s g, List.length s <= f -> List.length s <= g -> take_fields f s = take_fields g s.
Proof.
  induction f as [|f IH]; intros [|a s] [|g] Hf Hg; try reflexivity; try (cbn in *; lia). cbn [take_fields].
  destruct (take_field (a :: s)) as [[[n w] r]|] eqn:H; [|reflexivity]. apply take_field_shorter in H. cbn in *. rewrite (IH r g); [reflexivity|lia|lia].
Qed.
Lemma contents_cons s n c r : take_field s = Some (n, c, r) -> contents s = option_map (cons (n, c)) (contents r).
Proof.
  intros H. pose proof (take_field_shorter _ _ _ _ H) as Hl. unfold contents. destruct s as [|a s]; [discriminate|]. cbn [List.length take_fields].
  rewrite H. f_equal. apply take_fields_enough; [cbn in Hl; lia|lia].
Qed.

(** [tok s cs]: the bytes [s] are the fields [cs], whatever follows *)
Definition tok (s : text) (cs : list (N * content)) : Prop := forall r, contents (s ++ r) = option_map (app cs) (contents r).
Lemma tok_nil : tok [] []. Proof. intros r. cbn [app]. destruct (contents r); reflexivity. Qed.
Lemma tok_app s cs s' cs' : tok s cs -> tok s' cs' -> tok (s ++ s') (cs ++ cs').
Proof. intros H H' r. rewrite <- app_assoc, H, H'. destruct (contents r); [|reflexivity]. cbn. now rewrite app_assoc. Qed.
Lemma tok_contents s cs : tok s cs -> contents s = Some cs.
Proof. intros H. specialize (H []). rewrite app_nil_r in H. rewrite H. cbn. now rewrite app_nil_r. Qed.

(** numbers a field may have *)
Definition field_number (n : N) : Prop := (0 < n < 2 ^ 29)%N.
Lemma tok_field s n c : (forall r, take_field (s ++ r) = Some (n, c, r)) -> tok s [(n, c)].
Proof. intros H r. now rewrite (contents_cons _ _ _ _ (H r)). Qed.
Lemma take_tag n wt (s : text) : field_number n -> (wt < 8)%N -> exists t, take_varint (tag n wt ++ s) = Some (t, s) /\ (t <? 8)%N = false /\ (4294967295 <? t)%N = false /\ (t mod 8)%N = wt /\ (t / 8)%N = n.
Proof.
  intros [H0 H1] Hw. change (2 ^ 29)%N with 536870912%N in H1. exists (n * 8 + wt)%N. unfold tag. rewrite take_varint_varint by (change (2 ^ 64)%N with 18446744073709551616%N; lia).
  split; [reflexivity|]. split; [lia|]. split; [lia|].
  split; [rewrite N.add_comm, N.mod_add by lia; now rewrite N.mod_small|rewrite N.add_comm, N.div_add by lia; rewrite N.div_small by exact Hw; reflexivity].
Qed.
Definition in_size (x : wnum) : Prop := match x with NVar x | N64 x => (x < 2 ^ 64)%N | N32 x => (x < 2 ^ 32)%N end.
Lemma tok_num n x : field_number n -> in_size x -> tok (num_field n x) [(n, CNum x)].
Proof.
  intros Hn Hx. apply tok_field. intros r. destruct x as [x|x|x]; cbn [num_field]; unfold var_field, f32_field, f64_field; rewrite <- app_assoc; unfold take_field.
  - destruct (take_tag n 0 (varint x ++ r) Hn ltac:(lia)) as (t & -> & -> & -> & -> & ->). cbn [orb N.eqb]. now rewrite take_varint_varint.
  - destruct (take_tag n 5 (le_bytes 4 x ++ r) Hn ltac:(lia)) as (t & -> & -> & -> & -> & ->). cbn [orb N.eqb Pos.eqb]. now rewrite take_le_bytes.
  - destruct (take_tag n 1 (le_bytes 8 x ++ r) Hn ltac:(lia)) as (t & -> & -> & -> & -> & ->). cbn [orb N.eqb Pos.eqb]. now rewrite take_le_bytes.
Qed.
Lemma tok_len n s : field_number n -> small s -> tok (len_field n s) [(n, CLen s)].
Proof.
  intros Hn Hs. apply tok_field. intros r. unfold len_field. rewrite <- !app_assoc. unfold take_field.
  destruct (take_tag n 2 (varint (N.of_nat (List.length s)) ++ s ++ r) Hn ltac:(lia)) as (t & -> & -> & -> & -> & ->). cbn [orb N.eqb Pos.eqb]. now rewrite take_len_len.
Qed.
Lemma small_len n s : small (len_field n s) -> small s.
Proof. unfold len_field. intros H. apply small_app in H as [_ H]. now apply small_app in H as [_ H]. Qed.

(** * Scalars *)
Definition bits_ok (v : pval) : Prop := match v with PF32 b => (b < 2 ^ 32)%N | PF64 b => (b < 2 ^ 64)%N | _ => True end.
Definition numeric (v : pval) : bool := match v with PStr _ | PBytes _ | PMsg _ _ | PList _ | PMap _ => false | _ => true end.

Lemma s_of_u_of m z : (m = two32 \/ m = two64)%Z -> (- (m / 2) <= z < m / 2)%Z -> s_of m (u_of m z) = z.
Proof.
  intros Hm Hz. unfold s_of, u_of. assert (0 < m)%Z by (destruct Hm; subst; reflexivity). pose proof (Z.mod_pos_bound z m H).
  rewrite Z2N.id by lia. rewrite Z.mod_mod by lia.
  assert (He : (m = 2 * (m / 2))%Z) by (destruct Hm; subst; reflexivity).
  destruct (Z.ltb_spec z 0).
  - replace (z mod m)%Z with (z + m)%Z. { destruct (Z.ltb_spec (z + m) (m / 2)); lia. }
    rewrite <- (Z.mod_add z 1 m) by lia. rewrite Z.mul_1_l. rewrite Z.mod_small; lia.
  - rewrite Z.mod_small by lia. destruct (Z.ltb_spec z (m / 2)); lia.
Qed.
Lemma s_of_u_wide z : (- 2 ^ 31 <= z < 2 ^ 31)%Z -> s_of two32 (u_of two64 z) = z.
Proof.
  intros Hz. rewrite <- (s_of_u_of two32 z (or_introl eq_refl) Hz) at 2. unfold s_of, u_of.
  rewrite !Z2N.id by (apply Z.mod_pos_bound; reflexivity). replace ((z mod two64) mod two32)%Z with ((z mod two32) mod two32)%Z; [reflexivity|].
  rewrite Z.mod_mod by discriminate. change two64 with (two32 * two32)%Z. rewrite Z.rem_mul_r by (discriminate || reflexivity).
  rewrite Z.mul_comm, Z.mod_add by discriminate. now rewrite Z.mod_mod by discriminate.
Qed.
Lemma u_of_bound m z : (0 < m)%Z -> (u_of m z < Z.to_N m)%N.
Proof. intros H. unfold u_of. pose proof (Z.mod_pos_bound z m H). apply Z2N.inj_lt; lia. Qed.
Lemma unzigzag_zigzag z : unzigzag (zigzag z) = z.
Proof.
  unfold zigzag, unzigzag. destruct (Z.ltb_spec z 0).
  - replace (Z.to_N (-2 * z - 1)) with (1 + 2 * Z.to_N (- z - 1))%N by lia. rewrite N.even_add_mul_2. change (N.even 1) with false. cbv iota.
    replace ((1 + 2 * Z.to_N (- z - 1)) / 2)%N with (Z.to_N (- z - 1)); [lia|]. apply (N.div_unique _ 2 _ 1); lia.
  - replace (Z.to_N (2 * z)) with (2 * Z.to_N z)%N by lia. rewrite N.even_mul. change (N.even 2) with true. cbv iota beta delta [orb]. rewrite (N.mul_comm 2), N.div_mul by lia. lia.
Qed.
Lemma zigzag_bound m z : (- m <= z < m)%Z -> (zigzag z < Z.to_N (2 * m))%N.
Proof. intros H. unfold zigzag. destruct (Z.ltb_spec z 0); apply Z2N.inj_lt; lia. Qed.

Lemma number_ok k v : conf_scalar k v -> bits_ok v -> numeric v = true -> in_size (number_of k v) /\ as_number k (number_of k v) = Some v.
Proof.
  intros Hc Hb Hn. destruct Hc as [b|k z Hk Hz|k z Hk Hz|k n Hk Hz|k n Hk Hz|b|b|s|s|l z Hz]; try discriminate Hn.
  - destruct b; (split; [reflexivity|reflexivity]).
  - cbn in Hk. destruct Hk as [<-|[<-|[<-|[]]]]; cbn [number_of in_size as_number].
    + split; [apply u_of_bound; reflexivity|now rewrite s_of_u_wide].
    + pose proof (zigzag_bound _ _ Hz) as Hb'. change (Z.to_N (2 * 2 ^ 31)) with (2 ^ 32)%N in Hb'. split; [eapply N.lt_trans; [exact Hb'|reflexivity]|].
      change (Z.to_N two32) with (2 ^ 32)%N. rewrite N.mod_small by exact Hb'. now rewrite unzigzag_zigzag.
    + split; [apply u_of_bound; reflexivity|]. rewrite s_of_u_of; [reflexivity|now left|exact Hz].
  - cbn in Hk. destruct Hk as [<-|[<-|[<-|[]]]]; cbn [number_of in_size as_number].
    + split; [apply u_of_bound; reflexivity|]. rewrite s_of_u_of; [reflexivity|now right|exact Hz].
    + split; [exact (zigzag_bound _ _ Hz)|now rewrite unzigzag_zigzag].
    + split; [apply u_of_bound; reflexivity|]. rewrite s_of_u_of; [reflexivity|now right|exact Hz].
  - cbn in Hk. destruct Hk as [<-|[<-|[]]]; cbn [number_of in_size as_number].
    + split; [eapply N.lt_trans; [exact Hz|reflexivity]|]. change (Z.to_N two32) with (2 ^ 32)%N. now rewrite N.mod_small.
    + now split.
  - cbn in Hk. destruct Hk as [<-|[<-|[]]]; cbn [number_of in_size as_number]; now split.
  - now split.
  - now split.
  - cbn [number_of in_size as_number]. split; [apply u_of_bound; reflexivity|now rewrite s_of_u_wide].
Qed.
Lemma take_number_ok k v r : conf_scalar k v -> bits_ok v -> numeric v = true -> take_number k (num_bytes (number_of k v) ++ r) = Some (v, r).
Proof.
  intros Hc Hb Hn. destruct (number_ok k v Hc Hb Hn) as [Hs Ha].
  assert (Hx : forall x, number_of k v = NVar x -> take_varint (num_bytes (number_of k v) ++ r) = Some (x, r)).
  { intros x Hx. rewrite Hx in *. now apply take_varint_varint. }
  assert (Hx4 : forall x, number_of k v = N32 x -> take_le 4 (num_bytes (number_of k v) ++ r) = Some (x, r)).
  { intros x Hx4. rewrite Hx4 in *. now apply take_le_bytes. }
  assert (Hx8 : forall x, number_of k v = N64 x -> take_le 8 (num_bytes (number_of k v) ++ r) = Some (x, r)).
  { intros x Hx8. rewrite Hx8 in *. now apply take_le_bytes. }
  destruct Hc as [b|k z Hk Hz|k z Hk Hz|k n Hk Hz|k n Hk Hz|b|b|s|s|l z Hz]; try discriminate Hn; try (cbn in Hk; repeat destruct Hk as [<-|Hk]; try destruct Hk);
    unfold take_number; first [rewrite (Hx _ eq_refl)|rewrite (Hx4 _ eq_refl)|rewrite (Hx8 _ eq_refl)]; cbn [number_of] in Ha; rewrite Ha; reflexivity.
Qed.
Lemma varint_nonempty x : varint x <> [].
Proof. unfold varint. destruct (N.size_nat x); cbn; [discriminate|]. destruct (N.ltb x 128); discriminate. Qed.
Lemma num_bytes_nonempty x : 0 < List.length (num_bytes x).
Proof. destruct x; cbn; try lia. pose proof (varint_nonempty x). destruct (varint x); [easy|cbn; lia]. Qed.
Lemma take_packed_ok k l : (forall v, In v l -> conf_scalar k v /\ bits_ok v /\ numeric v = true) ->
  forall fuel, List.length (flat_map (fun x => num_bytes (number_of k x)) l) <= fuel -> take_packed fuel k (flat_map (fun x => num_bytes (number_of k x)) l) = Some l.
Proof.
  induction l as [|v l IH]; intros H fuel Hf; cbn [flat_map] in *; [now destruct fuel|].
  pose proof (num_bytes_nonempty (number_of k v)) as Hne. rewrite app_length in Hf. destruct (H v (or_introl eq_refl)) as (H1 & H2 & H3).
  pose proof (take_number_ok k v (flat_map (fun x => num_bytes (number_of k x)) l) H1 H2 H3) as Ht.
  destruct fuel as [|fuel]; [lia|]. destruct (num_bytes (number_of k v)) as [|a s] eqn:Hs; [cbn in Hne; lia|]. cbn [app] in *. cbn [take_packed]. rewrite Ht.
  rewrite IH; [reflexivity|intros x Hx; apply H; now right|cbn in Hf; lia].
Qed.

(** * Messages *)
Lemma rival_dec f g : rival f g \/ ~ rival f g.
Proof.
  unfold rival. destruct (fd_oneof f) as [a|]; [|right; now intros (o & H & _)]. destruct (fd_oneof g) as [b|]; [|right; now intros (o & _ & H & _)].
  destruct (N.eq_dec a b) as [->|Hab]; [|right; intros (o & [= ->] & [= ->] & _); easy].
  destruct (text_eq_dec (fd_name f) (fd_name g)) as [He|He]; [right; intros (o & _ & _ & H); easy|left; eauto].
Qed.
Section Reader.
  Variables (W : wenv) (p : schema).
  Definition message_in (R : mdesc -> list (N * content) -> list (text * pval) -> option (list (text * pval))) n s (old : list (text * pval)) : option pval :=
    match lookup p n, contents s with
    | Some d', Some cs' => option_map (PMsg n) (R d' cs' old)
    | _, _ => None
    end.
  Definition single_in R (f : fdesc) c old : option pval :=
    match fd_kind f, c with
    | FMsg n, CLen s => message_in R n s (old_msg old)
    | FMsg _, _ => None
    | k, c => as_scalar k c
    end.
  Definition entry_in R e s : option (pkey * pval) :=
    match lookup p e, message_in R e s [] with
    | Some d', Some (PMsg _ fs) =>
        match field_by_name d' (tx "key"), field_by_name d' (tx "value") with
        | Some kf, Some vf =>
            match (match tget (tx "key") fs with Some k => Some k | None => unset p kf end),
                  (match tget (tx "value") fs with Some v => Some v | None => unset p vf end) with
            | Some k, Some v => option_map (fun k => (k, v)) (val_key k)
            | _, _ => None
            end
        | _, _ => None
        end
    | _, _ => None
    end.
  Definition field_in R f c old : option pval :=
    if is_map p f then
      match fd_kind f, c with
      | FMsg e, CLen s => option_map (fun kv => PMap (aset pkey_eqb (fst kv) (snd kv) (old_map old))) (entry_in R e s)
      | _, _ => None
      end
    else if fd_repeated f then
      match packable (fd_kind f), c with
      | true, CLen s => option_map (fun l => PList (old_list old ++ l)) (take_packed (List.length s) (fd_kind f) s)
      | _, _ => option_map (fun v => PList (old_list old ++ [v])) (single_in R f c None)
      end
    else single_in R f c old.
  Definition steps (F : fdesc -> content -> option pval -> option pval) (d : mdesc) : list (N * content) -> list (text * pval) -> option (list (text * pval)) :=
    fix go (cs : list (N * content)) (m : list (text * pval)) {struct cs} : option (list (text * pval)) :=
    match cs with
    | [] => Some m
    | (n, c) :: cs' =>
        match find (fun f => N.eqb (w_number W (md_name d) (fd_name f)) n) (md_fields d) with
        | None => go cs' m
        | Some f => match F f c (tget (fd_name f) m) with Some v => go cs' (set_field d f v m) | None => None end
        end
    end.
  Lemma get_fields_S k d cs m : get_fields W p (S k) d cs m = steps (field_in (get_fields W p k)) d cs m.
  Proof. reflexivity. Qed.
  Lemma steps_app F d cs : forall cs' m, steps F d (cs ++ cs') m = match steps F d cs m with Some m' => steps F d cs' m' | None => None end.
  Proof.
    induction cs as [|[n c] cs IH]; intros cs' m; [reflexivity|]. cbn [app steps]. destruct (find _ _) as [f|]; [|apply IH].
    destruct (F f c _); [apply IH|reflexivity].
  Qed.
  (** the contents of one field in turn *)
  Fixpoint feed (F : fdesc -> content -> option pval -> option pval) f (L : list content) (old : option pval) : option (option pval) :=
    match L with
    | [] => Some old
    | c :: L' => match F f c old with Some v => feed F f L' (Some v) | None => None end
    end.

  Variable d : mdesc.
  Hypothesis Hn : NoDup (map fd_name (md_fields d)).
  Hypothesis Hw : forall f g, In f (md_fields d) -> In g (md_fields d) -> w_number W (md_name d) (fd_name f) = w_number W (md_name d) (fd_name g) -> fd_name f = fd_name g.

  Lemma find_number f : In f (md_fields d) -> find (fun g => N.eqb (w_number W (md_name d) (fd_name g)) (w_number W (md_name d) (fd_name f))) (md_fields d) = Some f.
  Proof.
    intros Hf. destruct (find _ (md_fields d)) as [g|] eqn:H.
    - apply find_some in H as [Hg He]. apply N.eqb_eq in He. pose proof (Hw g f Hg Hf He) as Hnm.
      pose proof (field_by_name_In d g Hn Hg) as A. pose proof (field_by_name_In d f Hn Hf) as B. rewrite Hnm in A. congruence.
    - pose proof (find_none _ _ H f Hf) as X. cbn in X. now rewrite N.eqb_refl in X.
  Qed.
  Lemma steps_feed F f L : In f (md_fields d) -> forall m v, feed F f L (tget (fd_name f) m) = Some v ->
    (forall h, In h (md_fields d) -> rival f h -> tget (fd_name h) m = None) ->
    exists m', steps F d (map (pair (w_number W (md_name d) (fd_name f))) L) m = Some m' /\ tget (fd_name f) m' = v /\ forall k, k <> fd_name f -> tget k m' = tget k m.
  Proof.
    intros Hf. induction L as [|c L IH]; intros m v Hfeed Hr; cbn [feed map steps] in *; [injection Hfeed as <-; eauto|].
    rewrite (find_number f Hf). destruct (F f c (tget (fd_name f) m)) as [w|]; [|discriminate].
    assert (Ho : forall k, k <> fd_name f -> tget k (set_field d f w m) = tget k m).
    { intros k Hk. destruct (set_field_other d f w m k Hk) as [S1 S2]. destruct (field_by_name d k) as [g|] eqn:Hg.
      - apply find_some in Hg as [Hg He]. apply text_eqb_eq in He. destruct (rival_dec f g) as [Hrv|Hrv].
        + rewrite S1 by eauto. symmetry. rewrite <- He. now apply Hr.
        + apply S2. intros g' Hg' Hr' He'. pose proof (field_by_name_In d g Hn Hg) as A. pose proof (field_by_name_In d g' Hn Hg') as B. rewrite He, <- He' in A. congruence.
      - apply S2. intros g' Hg' _ He'. pose proof (field_by_name_In d g' Hn Hg') as B. congruence. }
    edestruct (IH (set_field d f w m) v) as (m' & H1 & H2 & H3); [now rewrite set_field_same|intros h Hh Hrv|].
    - rewrite Ho; [now apply Hr|]. destruct Hrv as (o & _ & _ & Hne). congruence.
    - exists m'. split; [exact H1|]. split; [exact H2|]. intros k Hk. rewrite H3, Ho; auto.
  Qed.
End Reader.
