(** C121: service messages survive the wire. *)
From Coq Require Import String Ascii List NArith ZArith Bool Lia Arith Permutation ZifyN ZifyNat ZifyBool.
From Verif Require Import Base P_Utf8 Value Wire Conv Prop_Conv Prop_Conv2 Prop_Conv3 Proto P_Proto.
Import ListNotations.
Open Scope list_scope.

(** * Specification *)
(** what protobuf guarantees of the numbers of fields and of the entries of maps *)
Record wire_schema (W : wenv) (p : schema) : Prop := {
  ws_names : forall d, In d p -> NoDup (map fd_name (md_fields d));
  ws_range : forall d f, In d p -> In f (md_fields d) -> (0 < w_number W (md_name d) (fd_name f) < 2 ^ 29)%N;
  ws_distinct : forall d f g, In d p -> In f (md_fields d) -> In g (md_fields d) ->
    w_number W (md_name d) (fd_name f) = w_number W (md_name d) (fd_name g) -> fd_name f = fd_name g;
  ws_entry : forall e f g, In e p -> md_entry e = true -> In f (md_fields e) -> In g (md_fields e) -> fd_repeated f = false /\ ~ rival f g }.

(** strings are text, floats are bit patterns, and none is a negative zero if that is taken for the default *)
Definition clean (W : wenv) (v : pval) : Prop :=
  match v with
  | PStr s => utf8_valid s = true
  | PF32 b => (b < 2 ^ 32)%N /\ (w_negzero W = true -> b <> 2147483648%N)
  | PF64 b => (b < 2 ^ 64)%N /\ (w_negzero W = true -> b <> 9223372036854775808%N)
  | _ => True
  end.
(** [wireable W p k whole f v]: [v] has the type of [f], is nested at most [k] deep and is clean *)
Inductive wireable (W : wenv) (p : schema) : nat -> bool -> fdesc -> pval -> Prop :=
| wr_map k f e kf vf l : map_entry p f e -> In kf (md_fields e) -> fd_name kf = tx "key" -> In vf (md_fields e) -> fd_name vf = tx "value" ->
    NoDup (map fst l) -> (forall x w, In (x, w) l -> conf_key (fd_kind kf) x /\ forall s, x = MStr s -> utf8_valid s = true) ->
    (forall x w, In (x, w) l -> wireable W p k false vf w) -> wireable W p (S k) true f (PMap l)
| wr_list k f l : fd_repeated f = true -> (forall e, ~ map_entry p f e) -> (forall w, In w l -> wireable W p k false f w) -> wireable W p k true f (PList l)
| wr_whole k f w : fd_repeated f = false -> wireable W p k false f w -> wireable W p k true f w
| wr_one k f w : conf_scalar (fd_kind f) w -> clean W w -> wireable W p k false f w
| wr_msg k f n d fs : fd_kind f = FMsg n -> lookup p n = Some d -> NoDup (map fst fs) ->
    (forall x w, In (x, w) fs -> exists g, In g (md_fields d) /\ fd_name g = x) ->
    (forall g w, In g (md_fields d) -> tget (fd_name g) fs = Some w -> wireable W p k true g w) ->
    (forall g h, In g (md_fields d) -> In h (md_fields d) -> rival g h -> tget (fd_name g) fs = None \/ tget (fd_name h) fs = None) ->
    wireable W p (S k) false f (PMsg n fs).

(** the same message: a field without presence may be left out if it holds its default *)
Inductive arel (p : schema) (R : pval -> pval -> Prop) (g : fdesc) : option pval -> option pval -> Prop :=
| ar_none : arel p R g None None
| ar_some a b : R a b -> arel p R g (Some a) (Some b)
| ar_default a : supports_presence g = false -> default_of p g = Some a -> arel p R g (Some a) None.
Inductive alike (p : schema) : pval -> pval -> Prop :=
| al_one v : alike p v v
| al_list l m : Forall2 (alike p) l m -> alike p (PList l) (PList m)
| al_map l m : Forall2 (fun a b => fst a = fst b /\ alike p (snd a) (snd b)) l m -> alike p (PMap l) (PMap m)
| al_msg n d fs gs : lookup p n = Some d -> (forall k, tget k gs <> None -> tget k fs <> None) ->
    (forall g, In g (md_fields d) -> arel p (alike p) g (tget (fd_name g) fs) (tget (fd_name g) gs)) -> alike p (PMsg n fs) (PMsg n gs).

(** * Proof *)
Lemma clean_bits W v : clean W v -> bits_ok v.
Proof. destruct v; cbn; tauto. Qed.
Lemma tget_In {A} k (w : A) l : NoDup (map fst l) -> In (k, w) l -> tget k l = Some w.
Proof.
  induction l as [|[a b] l IH]; cbn; [easy|]. intros Hn [[= -> ->]|Hi]; [now rewrite text_eqb_refl|].
  apply NoDup_cons_iff in Hn as [Hn1 Hn2]. destruct (text_eqb k a) eqn:He; [|now apply IH]. apply text_eqb_eq in He. subst a. destruct Hn1. apply in_map_iff. now exists (k, w).
Qed.
Lemma tget_Some_In {A} k (w : A) l : tget k l = Some w -> In (k, w) l.
Proof. induction l as [|[a b] l IH]; cbn; [discriminate|]. destruct (text_eqb k a) eqn:He; [intros [= ->]; apply text_eqb_eq in He; subst; now left|right; now apply IH]. Qed.
Lemma tget_None_In {A} k (l : list (text * A)) : tget k l = None <-> ~ In k (map fst l).
Proof.
  induction l as [|[a b] l IH]; cbn; [tauto|]. destruct (text_eqb k a) eqn:He.
  - apply text_eqb_eq in He. subst. split; [discriminate|intros H; exfalso; apply H; now left].
  - rewrite IH. apply text_eqb_neq in He. intuition congruence.
Qed.

Lemma scalar_field_tok W k n v : conf_scalar k v -> clean W v -> field_number n -> small (scalar_field k n v) ->
  exists c, tok (scalar_field k n v) [(n, c)] /\ as_scalar k c = Some v /\ (packable k = true -> exists x, c = CNum x).
Proof.
  intros Hc Hl Hf Hs. destruct (numeric v) eqn:Hn.
  - destruct (number_ok k v Hc (clean_bits _ _ Hl) Hn) as [H1 H2]. exists (CNum (number_of k v)).
    assert (He : scalar_field k n v = num_field n (number_of k v)) by (destruct v; try discriminate Hn; reflexivity). rewrite He.
    split; [now apply tok_num|]. split; [|eauto]. destruct Hc; try discriminate Hn; try exact H2; cbn in H; repeat destruct H as [<-|H]; try destruct H; exact H2.
  - destruct Hc; try discriminate Hn; cbn [scalar_field] in *; exists (CLen s); (split; [apply tok_len; [exact Hf|now apply small_len in Hs]|]); cbn [as_scalar]; cbn in Hl; try rewrite Hl; (split; [reflexivity|discriminate]).
Qed.
Lemma skipped_default W p f v : skipped W f v = true -> (forall e, map_entry p f e -> exists l, v = PMap l) -> ((forall e, ~ map_entry p f e) -> fd_repeated f = true -> exists l, v = PList l) ->
  (fd_repeated f = false -> conf_scalar (fd_kind f) v /\ clean W v) -> supports_presence f = false /\ default_of p f = Some v.
Proof.
  unfold skipped. intros H Hm Hl Hs. apply andb_true_iff in H as [Hp Hd]. apply negb_true_iff in Hp. split; [exact Hp|]. unfold default_of.
  destruct (is_map p f) eqn:Hmap.
  - assert (exists e, map_entry p f e) as [e He]. { unfold is_map in Hmap. apply andb_true_iff in Hmap as [Hr Hk]. destruct (fd_kind f) eqn:Hk'; try discriminate. destruct (lookup p name) as [e|] eqn:He; [|discriminate]. exists e, name. auto. }
    destruct (Hm e He) as [l ->]. destruct l; [reflexivity|discriminate].
  - assert (Hnm : forall e, ~ map_entry p f e) by (intros e He; apply is_map_spec in He as (He & _); congruence).
    destruct (fd_repeated f) eqn:Hr; [destruct (Hl Hnm eq_refl) as [l ->]; destruct l; [reflexivity|discriminate]|].
    destruct (Hs eq_refl) as [Hc Hcl]. remember (fd_kind f) as k eqn:Hkf. destruct Hc as [b|k z Hk Hz|k z Hk Hz|k n Hk Hz|k n Hk Hz|b|b|s|s|l z Hz]; cbn in Hd.
    + now destruct b.
    + apply Z.eqb_eq in Hd as ->. cbn in Hk. now destruct Hk as [<-|[<-|[<-|[]]]].
    + apply Z.eqb_eq in Hd as ->. cbn in Hk. now destruct Hk as [<-|[<-|[<-|[]]]].
    + apply N.eqb_eq in Hd as ->. cbn in Hk. now destruct Hk as [<-|[<-|[]]].
    + apply N.eqb_eq in Hd as ->. cbn in Hk. now destruct Hk as [<-|[<-|[]]].
    + cbn in Hcl. destruct Hcl as [_ Hz]. apply orb_true_iff in Hd as [Hd|Hd]; [now apply N.eqb_eq in Hd as ->|]. apply andb_true_iff in Hd as [H1 H2]. apply N.eqb_eq in H2. now destruct (Hz H1).
    + cbn in Hcl. destruct Hcl as [_ Hz]. apply orb_true_iff in Hd as [Hd|Hd]; [now apply N.eqb_eq in Hd as ->|]. apply andb_true_iff in Hd as [H1 H2]. apply N.eqb_eq in H2. now destruct (Hz H1).
    + now destruct s.
    + now destruct s.
    + rewrite <- Hkf in Hd. apply Z.eqb_eq in Hd as ->. reflexivity.
Qed.

Section Items.
  Variables (W : wenv) (p : schema) (d : mdesc).
  Hypothesis Hn : NoDup (map fd_name (md_fields d)).
  Hypothesis Hw : forall f g, In f (md_fields d) -> In g (md_fields d) -> w_number W (md_name d) (fd_name f) = w_number W (md_name d) (fd_name g) -> fd_name f = fd_name g.

  Definition item (kv : text * pval) : text :=
    match field_by_name d (fst kv) with
    | Some g => if skipped W g (snd kv) then [] else put W p g (w_number W (md_name d) (fst kv)) (snd kv)
    | None => []
    end.
  Definition read_item F (g : fdesc) (w : pval) : Prop :=
    exists L w', tok (put W p g (w_number W (md_name d) (fd_name g)) w) (map (pair (w_number W (md_name d) (fd_name g))) L) /\ feed F g L None = Some (Some w') /\ alike p w w'.
  Lemma read_items F l : forall m, NoDup (map fst l) ->
    (forall k w, In (k, w) l -> exists g, In g (md_fields d) /\ fd_name g = k /\ (skipped W g w = false -> read_item F g w)) ->
    (forall g h, In g (md_fields d) -> In h (md_fields d) -> rival g h -> In (fd_name g) (map fst l) \/ tget (fd_name g) m <> None -> ~ In (fd_name h) (map fst l) /\ tget (fd_name h) m = None) ->
    (forall k, In k (map fst l) -> tget k m = None) ->
    exists cs m', tok (concat (map item l)) cs /\ steps W F d cs m = Some m' /\ (forall k, ~ In k (map fst l) -> tget k m' = tget k m) /\
      (forall g w, In g (md_fields d) -> In (fd_name g, w) l -> (skipped W g w = true /\ tget (fd_name g) m' = None) \/ (skipped W g w = false /\ exists w', tget (fd_name g) m' = Some w' /\ alike p w w')).
  Proof.
    induction l as [|[k w] l IH]; intros m Hnd Hi Hr Hm.
    { exists [], m. split; [apply tok_nil|]. split; [reflexivity|]. split; [easy|]. intros g w _ []. }
    cbn [map fst] in *. apply NoDup_cons_iff in Hnd as [Hk Hnd]. destruct (Hi k w (or_introl eq_refl)) as (g & Hg & <- & Hread).
    assert (Hone : exists cs0 m0, tok (item (fd_name g, w)) cs0 /\ steps W F d cs0 m = Some m0 /\ (forall k, k <> fd_name g -> tget k m0 = tget k m) /\
        ((skipped W g w = true /\ tget (fd_name g) m0 = None) \/ (skipped W g w = false /\ exists w', tget (fd_name g) m0 = Some w' /\ alike p w w'))).
    { unfold item. cbn [fst snd]. rewrite (field_by_name_In d g Hn Hg). destruct (skipped W g w) eqn:Hs.
      - exists [], m. split; [apply tok_nil|]. split; [reflexivity|]. split; [easy|]. left. split; [easy|]. apply Hm. now left.
      - destruct (Hread eq_refl) as (L & w' & H1 & H2 & H3). rewrite <- (Hm (fd_name g)) in H2 by now left.
        destruct (steps_feed W d Hn Hw F g L Hg m _ H2) as (m0 & S1 & S2 & S3).
        { intros h Hh Hrv. apply (Hr g h Hg Hh Hrv). left. now left. }
        exists (map (pair (w_number W (md_name d) (fd_name g))) L), m0. split; [exact H1|]. split; [exact S1|]. split; [exact S3|]. right. split; [easy|]. eauto. }
    destruct Hone as (cs0 & m0 & T0 & S0 & O0 & R0).
    destruct (IH m0) as (cs & m' & T & S & O & R).
    - exact Hnd.
    - intros k' w' Hin. apply Hi. now right.
    - intros g1 h1 Hg1 Hh1 Hrv Hor.
      assert (Hor' : (fd_name g = fd_name g1 \/ In (fd_name g1) (map fst l)) \/ tget (fd_name g1) m <> None).
      { destruct Hor as [Hor|Hor]; [now left; right|]. destruct (text_eq_dec (fd_name g1) (fd_name g)) as [He|He]; [left; left; easy|right]. now rewrite <- (O0 _ He). }
      destruct (Hr g1 h1 Hg1 Hh1 Hrv Hor') as [A B]. split; [intros X; apply A; now right|]. rewrite O0; [exact B|]. intros He. apply A. now left.
    - intros k' Hk'. rewrite O0; [apply Hm; now right|]. intros ->. contradiction.
    - exists (cs0 ++ cs), m'. split; [cbn [concat]; now apply tok_app|]. split; [now rewrite steps_app, S0|]. split.
      + intros k' Hk'. rewrite O by (intros X; apply Hk'; now right). apply O0. intros ->. apply Hk'. now left.
      + intros g1 w1 Hg1 [[= He <-]|Hin]; [|now apply R].
        assert (g1 = g) as -> by (pose proof (field_by_name_In d g Hn Hg) as A; pose proof (field_by_name_In d g1 Hn Hg1) as B; rewrite He in A; congruence).
        rewrite O by exact Hk. exact R0.
  Qed.
End Items.

(** sorting by number only changes the order *)
Lemma ins_map {A B} (h : A -> N * B) x l : exists l', Permutation (x :: l) l' /\ ins_num (h x) (map h l) = map h l'.
Proof.
  induction l as [|y l (l' & IH1 & IH2)]; [exists [x]; auto|]. cbn [map ins_num]. destruct (N.leb _ _); [exists (x :: y :: l); auto|].
  exists (y :: l'). split; [|cbn; now rewrite IH2]. eapply perm_trans; [apply perm_swap|now apply perm_skip].
Qed.
Lemma sort_map {A B} (h : A -> N * B) l : exists l', Permutation l l' /\ sort_num (map h l) = map h l'.
Proof.
  induction l as [|x l (l' & IH1 & IH2)]; [exists []; auto|]. unfold sort_num in *. cbn [map fold_right]. rewrite IH2. destruct (ins_map h x l') as (l2 & P1 & P2).
  exists l2. split; [|exact P2]. exact (perm_trans (perm_skip x IH1) P1).
Qed.
Lemma put_fields_items W p d fs : exists l, Permutation fs l /\ put_fields W p d fs = concat (map (item W p d) l).
Proof.
  destruct (sort_map (fun kv => (w_number W (md_name d) (fst kv), item W p d kv)) fs) as (l & P & H). exists l. split; [exact P|].
  transitivity (concat (map snd (sort_num (map (fun kv => (w_number W (md_name d) (fst kv), item W p d kv)) fs)))); [reflexivity|]. rewrite H. now rewrite map_map.
Qed.

Lemma small_concat s l : small (concat l) -> In s l -> small s.
Proof. induction l as [|x l IH]; cbn; [easy|]. intros Hs [->|Hi]; apply small_app in Hs as [H1 H2]; auto. Qed.
Lemma small_flat {A} (h : A -> text) l x : small (flat_map h l) -> In x l -> small (h x).
Proof. rewrite flat_map_concat_map. intros H Hi. apply (small_concat _ _ H). now apply in_map. Qed.

Lemma aset_fresh x (w : pval) acc : ~ In x (map fst acc) -> aset pkey_eqb x w acc = acc ++ [(x, w)].
Proof.
  induction acc as [|[a b] acc IH]; cbn; [easy|]. intros H. destruct (pkey_eqb x a) eqn:He; [apply pkey_eqb_eq in He; subst; tauto|]. rewrite IH; tauto.
Qed.

Section Main.
  Variables (W : wenv) (p : schema).
  Hypothesis S : wire_schema W p.

  (** one message, given its fields *)
  Lemma read_all F d fs : In d p -> NoDup (map fst fs) -> (forall x w, In (x, w) fs -> exists g, In g (md_fields d) /\ fd_name g = x) ->
    (forall g h, In g (md_fields d) -> In h (md_fields d) -> rival g h -> tget (fd_name g) fs = None \/ tget (fd_name h) fs = None) ->
    (forall g w, In g (md_fields d) -> tget (fd_name g) fs = Some w -> skipped W g w = false -> small (put W p g (w_number W (md_name d) (fd_name g)) w) -> read_item W p d F g w) ->
    forall l, Permutation fs l -> small (concat (map (item W p d) l)) ->
    exists cs m', contents (concat (map (item W p d) l)) = Some cs /\ steps W F d cs [] = Some m' /\ (forall k, tget k m' <> None -> tget k fs <> None) /\
      (forall g w, In g (md_fields d) -> tget (fd_name g) fs = Some w -> (skipped W g w = true /\ tget (fd_name g) m' = None) \/ (skipped W g w = false /\ exists w', tget (fd_name g) m' = Some w' /\ alike p w w')).
  Proof.
    intros Hd Hnd Hdecl Hriv Hread l Hp Hsm. pose proof (ws_names W p S d Hd) as Hn.
    assert (Hndl : NoDup (map fst l)) by (eapply Permutation_NoDup; [apply Permutation_map; exact Hp|exact Hnd]).
    assert (Hin : forall x, In x l <-> In x fs) by (intros x; split; apply Permutation_in; [now symmetry|exact Hp]).
    assert (Hkeys : forall k, In k (map fst l) <-> tget k fs <> None).
    { intros k. rewrite in_map_iff. split.
      - intros ([a b] & <- & Hab). apply Hin in Hab. cbn. rewrite (tget_In a b fs Hnd Hab). discriminate.
      - destruct (tget k fs) as [w|] eqn:Hk; [|easy]. intros _. exists (k, w). split; [easy|]. apply Hin. now apply tget_Some_In. }
    destruct (read_items W p d Hn (fun f g => ws_distinct W p S d f g Hd) F l [] Hndl) as (cs & m' & T & St & O & R).
    - intros k w Hkw. destruct (Hdecl k w (proj1 (Hin _) Hkw)) as (g & Hg & <-). exists g. split; [exact Hg|]. split; [reflexivity|]. intros Hs.
      apply Hread; auto. { apply tget_In; [exact Hnd|]. now apply Hin. }
      assert (Hit : item W p d (fd_name g, w) = put W p g (w_number W (md_name d) (fd_name g)) w) by (unfold item; cbn [fst snd]; rewrite (field_by_name_In d g Hn Hg), Hs; reflexivity).
      rewrite <- Hit. apply (small_concat _ _ Hsm). now apply in_map.
    - intros g h Hg Hh Hrv [Hi|Hi]; [|easy]. split; [|reflexivity]. rewrite Hkeys in *. destruct (Hriv g h Hg Hh Hrv); congruence.
    - reflexivity.
    - exists cs, m'. split; [now apply tok_contents|]. split; [exact St|]. split.
      + intros k Hk. apply Hkeys. destruct (in_dec text_eq_dec k (map fst l)) as [Hi|Hi]; [exact Hi|]. now rewrite O in Hk.
      + intros g w Hg Hw. apply R; [exact Hg|]. apply Hin. now apply tget_Some_In.
  Qed.

  Lemma put_msg f n name d fs : lookup p name = Some d -> put W p f n (PMsg name fs) = len_field n (put_fields W p d fs).
  Proof. intros H. destruct (lookup_In _ _ _ H) as [_ Hname]. cbn [put]. rewrite H. unfold put_fields. now rewrite Hname. Qed.

  Definition survives k (whole : bool) f w : Prop := forall n, field_number n -> small (put W p f n w) ->
    if whole then skipped W f w = false -> exists L w', tok (put W p f n w) (map (pair n) L) /\ feed (field_in p (get_fields W p k)) f L None = Some (Some w') /\ alike p w w'
    else exists c w', tok (put W p f n w) [(n, c)] /\ single_in p (get_fields W p k) f c None = Some w' /\ alike p w w'.
  Lemma skipped_ok k f w : wireable W p k true f w -> skipped W f w = true -> supports_presence f = false /\ default_of p f = Some w.
  Proof.
    intros H Hs. inversion H as [k0 f0 e kf vf l Hm | k0 f0 l Hr Hnm Hl | k0 f0 w0 Hr Hw0 | | ]; subst; apply (skipped_default W p f _ Hs).
    - eauto.
    - intros Hx. now destruct (Hx e).
    - intros Hr. destruct Hm as (n & Hrr & _). congruence.
    - intros e He. now destruct (Hnm e).
    - eauto.
    - congruence.
    - intros e (n & Hrr & _). congruence.
    - congruence.
    - intros _. inversion Hw0 as [ | | | k1 f1 w1 Hc Hcl | k1 f1 n d fs Hk Hl]; subst; [auto|].
      unfold skipped in Hs. cbn in Hs. now rewrite andb_false_r in Hs.
  Qed.

  Lemma one_survives k f w : conf_scalar (fd_kind f) w -> clean W w -> survives k false f w.
  Proof.
    intros Hc Hcl num Hnum Hsm.
    assert (Hput : put W p f num w = scalar_field (fd_kind f) num w) by (destruct w; try reflexivity; inversion Hc). rewrite Hput in *.
    destruct (scalar_field_tok W (fd_kind f) num w Hc Hcl Hnum Hsm) as (c & T & Ha & _).
    exists c, w. split; [exact T|]. split; [|apply al_one]. unfold single_in. destruct (fd_kind f); try exact Ha.
    exfalso. inversion Hc; subst; match goal with H : In (FMsg _) _ |- _ => cbn in H; intuition discriminate end.
  Qed.
  Lemma whole_survives k f w : fd_repeated f = false -> survives k false f w -> survives k true f w.
  Proof.
    intros Hr H num Hnum Hsm Hs. destruct (H num Hnum Hsm) as (c & w' & T & Hg & Ha). exists [c], w'. split; [exact T|]. split; [|exact Ha].
    cbn [feed]. unfold field_in. rewrite Hr. replace (is_map p f) with false by (unfold is_map; now rewrite Hr). now rewrite Hg.
  Qed.
  Lemma list_survives k f l : fd_repeated f = true -> (forall e, ~ map_entry p f e) -> (forall w, In w l -> wireable W p k false f w) -> (forall w, In w l -> survives k false f w) -> survives k true f (PList l).
  Proof.
    intros Hr Hnm Hl IH num Hnum Hsm Hs. pose proof (not_map_spec p f Hnm) as Hmap. destruct (packable (fd_kind f)) eqn:Hpk.
    - assert (Hall : forall v, In v l -> conf_scalar (fd_kind f) v /\ bits_ok v /\ numeric v = true).
      { intros v Hv. specialize (Hl v Hv). inversion Hl as [ | | | k1 f1 w1 Hc Hcl | k1 f1 n d fs Hk]; subst; [|rewrite Hk in Hpk; discriminate].
        split; [exact Hc|]. split; [now apply clean_bits with W|]. destruct (fd_kind f); try discriminate Hpk; inversion Hc; reflexivity. }
      destruct l as [|v l]; [exfalso; revert Hs; unfold skipped, supports_presence; rewrite Hr; discriminate|].
      set (bytes := flat_map (fun x => num_bytes (number_of (fd_kind f) x)) (v :: l)) in *.
      assert (Hput : put W p f num (PList (v :: l)) = len_field num bytes) by (cbn [put]; rewrite Hpk; reflexivity). rewrite Hput in *.
      exists [CLen bytes], (PList (v :: l)). split; [apply tok_len; [exact Hnum|now apply small_len in Hsm]|]. split; [|apply al_one].
      cbn [feed]. unfold field_in. rewrite Hmap, Hr, Hpk. unfold bytes. rewrite take_packed_ok; [reflexivity|exact Hall|reflexivity].
    - assert (Hput : forall m, put W p f num (PList m) = flat_map (fun x => put W p f num x) m) by (intros m; cbn [put]; now rewrite Hpk). rewrite Hput in *.
      assert (Hex : forall m, incl m l -> forall acc, exists L m', tok (flat_map (fun x => put W p f num x) m) (map (pair num) L) /\ Forall2 (alike p) m m' /\
        feed (field_in p (get_fields W p k)) f L (Some (PList acc)) = Some (Some (PList (acc ++ m')))).
      { induction m as [|w m IHm]; intros Hi acc; [exists [], []; rewrite app_nil_r; repeat split; [apply tok_nil|constructor]|].
        destruct (IH w (Hi w (or_introl eq_refl)) num Hnum) as (c & w' & T & Hg & Ha).
        { apply (small_flat (fun x => put W p f num x) l); [exact Hsm|]. apply Hi. now left. }
        destruct (IHm (fun x Hx => Hi x (or_intror Hx)) (acc ++ [w'])) as (L & m' & T' & Hf & Hfe).
        exists (c :: L), (w' :: m'). split; [exact (tok_app _ _ _ _ T T')|]. split; [now constructor|]. cbn [feed].
        assert (Hstep : field_in p (get_fields W p k) f c (Some (PList acc)) = Some (PList (acc ++ [w']))).
        { unfold field_in. rewrite Hmap, Hr, Hpk, Hg. reflexivity. }
        rewrite Hstep, Hfe. now rewrite <- app_assoc. }
      destruct l as [|w l]; [exfalso; revert Hs; unfold skipped, supports_presence; rewrite Hr; discriminate|].
      destruct (Hex (w :: l) (incl_refl _) []) as (L & m' & T & Hf & Hfe). exists L, (PList m'). split; [exact T|]. split; [|now constructor].
      destruct L as [|c L]; [injection Hfe as He; cbn in He; subst m'; inversion Hf|]. cbn [feed app] in *.
      replace (field_in p (get_fields W p k) f c None) with (field_in p (get_fields W p k) f c (Some (PList []))); [exact Hfe|]. unfold field_in. now rewrite Hmap, Hr, Hpk.
  Qed.
  Lemma key_scalar k x : conf_key k x -> conf_scalar k (key_val x).
  Proof. destruct 1; now constructor. Qed.
  Lemma alike_key x w : alike p (key_val x) w -> w = key_val x.
  Proof. inversion 1; subst; try reflexivity; destruct x; discriminate. Qed.
  Lemma val_key_val x : val_key (key_val x) = Some x.
  Proof. now destruct x. Qed.
  Lemma entry_survives k n e kf vf x w s : lookup p n = Some e -> md_entry e = true -> In kf (md_fields e) -> fd_name kf = tx "key" -> In vf (md_fields e) -> fd_name vf = tx "value" ->
    conf_key (fd_kind kf) x -> (forall t, x = MStr t -> utf8_valid t = true) -> wireable W p k false vf w -> survives k false vf w ->
    s = (if skipped W kf (key_val x) then [] else scalar_field (fd_kind kf) (w_number W n (tx "key")) (key_val x)) ++ (if skipped W vf w then [] else put W p vf (w_number W n (tx "value")) w) ->
    small s -> exists w', entry_in p (get_fields W p (Datatypes.S k)) n s = Some (x, w') /\ alike p w w'.
  Proof.
    intros Hl He Hkf Hkn Hvf Hvn Hck Hu Hww Hw Hs Hsm. destruct (lookup_In _ _ _ Hl) as [Hd Hname]. pose proof (ws_names W p S e Hd) as Hn.
    destruct (ws_entry W p S e kf kf Hd He Hkf Hkf) as [Rk _]. destruct (ws_entry W p S e vf vf Hd He Hvf Hvf) as [Rv _].
    assert (Hkv : tx "key" <> tx "value") by (intros X; apply (f_equal (@List.length ascii)) in X; discriminate X).
    pose proof (field_by_name_In e kf Hn Hkf) as Bk. pose proof (field_by_name_In e vf Hn Hvf) as Bv. rewrite Hkn in Bk. rewrite Hvn in Bv.
    assert (Hcl : clean W (key_val x)) by (destruct x; cbn; try exact Logic.I; now apply Hu).
    set (fs := [(tx "key", key_val x); (tx "value", w)]).
    assert (Hsc : s = concat (map (item W p e) fs)).
    { unfold fs, item. cbn [map concat fst snd]. rewrite Bk, Bv, Hname, app_nil_r, Hs. f_equal. destruct (skipped W kf (key_val x)); [reflexivity|]. now destruct x. }
    assert (Gk : tget (tx "key") fs = Some (key_val x)) by reflexivity.
    assert (Gv : tget (tx "value") fs = Some w) by reflexivity.
    assert (Hg : forall g, In g (md_fields e) -> tget (fd_name g) fs <> None -> g = kf \/ g = vf).
    { intros g Hge. unfold fs. cbn [tget aget]. pose proof (field_by_name_In e g Hn Hge) as B. destruct (text_eqb (fd_name g) (tx "key")) eqn:E1; [apply text_eqb_eq in E1; rewrite E1 in B; left; congruence|].
      destruct (text_eqb (fd_name g) (tx "value")) eqn:E2; [apply text_eqb_eq in E2; rewrite E2 in B; right; congruence|easy]. }
    rewrite Hsc in Hsm.
    destruct (read_all (field_in p (get_fields W p k)) e fs Hd) with (l := fs) as (cs & m' & C1 & C2 & C3 & C4); auto.
    - cbn. repeat constructor; cbn; intuition congruence.
    - intros y v [X|[X|[]]]; injection X as <- <-; eauto.
    - intros g h Hge Hhe Hrv. destruct (ws_entry W p S e g h Hd He Hge Hhe) as [_ X]. contradiction.
    - intros g v Hge Hv Hsk Hsg. destruct (Hg g Hge) as [Eg|Eg]; [congruence| |]; subst g.
      + rewrite Hkn, Gk in Hv. injection Hv as <-. exact (whole_survives k kf _ Rk (one_survives k kf _ (key_scalar _ _ Hck) Hcl) _ (ws_range W p S e kf Hd Hkf) Hsg Hsk).
      + rewrite Hvn, Gv in Hv. injection Hv as <-. exact (whole_survives k vf _ Rv Hw _ (ws_range W p S e vf Hd Hvf) Hsg Hsk).
    - assert (Ka : (match tget (tx "key") m' with Some y => Some y | None => unset p kf end) = Some (key_val x)).
      { rewrite <- Hkn in Gk. destruct (C4 kf _ Hkf Gk) as [[Hsk Hm]|[_ (y & Hm & Ha)]]; rewrite Hkn in Hm; rewrite Hm; [|now rewrite (alike_key _ _ Ha)].
        unfold unset. assert (Hwk : wireable W p k true kf (key_val x)) by (apply wr_whole; [exact Rk|apply wr_one; [now apply key_scalar|exact Hcl]]).
        destruct (skipped_ok k kf _ Hwk Hsk) as [_ ->]. reflexivity. }
      assert (Va : exists w', (match tget (tx "value") m' with Some y => Some y | None => unset p vf end) = Some w' /\ alike p w w').
      { rewrite <- Hvn in Gv. destruct (C4 vf _ Hvf Gv) as [[Hsk Hm]|[_ (y & Hm & Ha)]]; rewrite Hvn in Hm; rewrite Hm; [|eauto].
        exists w. split; [|apply al_one]. unfold unset. destruct (skipped_ok k vf _ (wr_whole W p k vf w Rv Hww) Hsk) as [_ ->]. reflexivity. }
      destruct Va as (w' & Va & Ha). exists w'. split; [|exact Ha]. unfold entry_in, message_in. rewrite Hl, Hsc, C1, get_fields_S, C2. cbn [option_map]. rewrite Bk, Bv, Ka, Va, val_key_val. reflexivity.
  Qed.
  Lemma map_survives k f e kf vf l : map_entry p f e -> In kf (md_fields e) -> fd_name kf = tx "key" -> In vf (md_fields e) -> fd_name vf = tx "value" ->
    NoDup (map fst l) -> (forall x w, In (x, w) l -> conf_key (fd_kind kf) x /\ forall s, x = MStr s -> utf8_valid s = true) ->
    (forall x w, In (x, w) l -> wireable W p k false vf w) -> (forall x w, In (x, w) l -> survives k false vf w) -> survives (Datatypes.S k) true f (PMap l).
  Proof.
    intros Hm Hkf Hkn Hvf Hvn Hnd Hkeys Hww Hvals num Hnum Hsm Hs. destruct (is_map_spec p f e Hm) as (Hmap & Hr & n & Hk & Hl).
    assert (He : md_entry e = true) by (destruct Hm as (n' & _ & Hk' & Hl' & H); congruence). destruct (lookup_In _ _ _ Hl) as [Hd Hname].
    pose proof (ws_names W p S e Hd) as Hn. pose proof (field_by_name_In e kf Hn Hkf) as Bk. pose proof (field_by_name_In e vf Hn Hvf) as Bv. rewrite Hkn in Bk. rewrite Hvn in Bv.
    set (enc := fun kv : pkey * pval => (if skipped W kf (key_val (fst kv)) then [] else scalar_field (fd_kind kf) (w_number W n (tx "key")) (key_val (fst kv)))
                                 ++ (if skipped W vf (snd kv) then [] else put W p vf (w_number W n (tx "value")) (snd kv))).
    assert (Hput : forall m, put W p f num (PMap m) = flat_map (fun kv => len_field num (enc kv)) m).
    { intros m. cbn [put]. rewrite Hk, Hl, Bk, Bv. reflexivity. }
    rewrite Hput in *.
    assert (Hex : forall m, incl m l -> forall acc, NoDup (map fst (acc ++ m)) -> exists L m', tok (flat_map (fun kv => len_field num (enc kv)) m) (map (pair num) L) /\
      Forall2 (fun a b => fst a = fst b /\ alike p (snd a) (snd b)) m m' /\
      feed (field_in p (get_fields W p (Datatypes.S k))) f L (Some (PMap acc)) = Some (Some (PMap (acc ++ m')))).
    { induction m as [|[x w] m IHm]; intros Hi acc Hnda; [exists [], []; rewrite app_nil_r; repeat split; [apply tok_nil|constructor]|].
      assert (Hin : In (x, w) l) by (apply Hi; now left). destruct (Hkeys x w Hin) as [Hck Hu].
      assert (Hsme : small (enc (x, w))) by (apply (small_len num); apply (small_flat (fun kv => len_field num (enc kv)) l); assumption).
      destruct (entry_survives k n e kf vf x w (enc (x, w)) Hl He Hkf Hkn Hvf Hvn Hck Hu (Hww x w Hin) (Hvals x w Hin) eq_refl Hsme) as (w' & Hen & Ha).
      destruct (IHm (fun y Hy => Hi y (or_intror Hy)) (acc ++ [(x, w')])) as (L & m' & T & Hf & Hfe).
      { rewrite <- app_assoc. cbn [app]. rewrite map_app in *. exact Hnda. }
      exists (CLen (enc (x, w)) :: L), ((x, w') :: m'). split; [exact (tok_app _ _ _ _ (tok_len num _ Hnum Hsme) T)|]. split; [now constructor|].
      cbn [feed]. assert (Hstep : field_in p (get_fields W p (Datatypes.S k)) f (CLen (enc (x, w))) (Some (PMap acc)) = Some (PMap (acc ++ [(x, w')]))).
      { unfold field_in. rewrite Hmap, Hk, Hen. cbn [option_map fst snd old_map]. f_equal. f_equal. apply aset_fresh.
        rewrite map_app in Hnda. apply NoDup_remove_2 in Hnda. intros X. apply Hnda. apply in_or_app. now left. }
      rewrite Hstep, Hfe. now rewrite <- app_assoc. }
    destruct l as [|xw l]; [exfalso; revert Hs; unfold skipped, supports_presence; rewrite Hr; discriminate|].
    destruct (Hex (xw :: l) (incl_refl _) [] Hnd) as (L & m' & T & Hf & Hfe). exists L, (PMap m'). split; [exact T|]. split; [|now constructor].
    destruct L as [|c L]; [injection Hfe as He'; cbn in He'; subst m'; inversion Hf|]. cbn [feed app] in *.
    replace (field_in p (get_fields W p (Datatypes.S k)) f c None) with (field_in p (get_fields W p (Datatypes.S k)) f c (Some (PMap []))); [exact Hfe|]. unfold field_in. now rewrite Hmap, Hk.
  Qed.

  Lemma survives_all k b f w : wireable W p k b f w -> survives k b f w.
  Proof.
    induction 1 as [k f e kf vf l Hm Hkf Hkn Hvf Hvn Hnd Hkeys Hvals IH|k f l Hr Hnm Hl IH|k f w Hr Hw IH|k f w Hc Hcl|k f n d fs Hk Hl Hnd Hdecl Hfs IH Hriv].
    - now apply (map_survives k f e kf vf l).
    - now apply list_survives.
    - now apply whole_survives.
    - now apply one_survives.
    - intros num Hnum Hsm.
      destruct (lookup_In _ _ _ Hl) as [Hd Hname]. rewrite (put_msg f num n d fs Hl) in *. destruct (put_fields_items W p d fs) as (l & Hp & Hput).
      pose proof (small_len _ _ Hsm) as Hsm'.
      destruct (read_all (field_in p (get_fields W p k)) d fs Hd Hnd Hdecl Hriv) with (l := l) as (cs & m' & C1 & C2 & C3 & C4); [|exact Hp|now rewrite <- Hput|].
      { intros g w Hg Hw Hs Hsg. exact (IH g w Hg Hw _ (ws_range W p S d g Hd Hg) Hsg Hs). }
      exists (CLen (put_fields W p d fs)), (PMsg n m'). split; [now apply tok_len|]. split.
      + unfold single_in. rewrite Hk. unfold message_in. rewrite Hl, Hput, C1. cbn [old_msg]. rewrite get_fields_S, C2. reflexivity.
      + apply (al_msg p n d fs m' Hl C3). intros g Hg. destruct (tget (fd_name g) fs) as [w|] eqn:Hw.
        * destruct (C4 g w Hg Hw) as [[Hs ->]|[_ (w' & -> & Ha)]]; [|now constructor]. destruct (skipped_ok k g w (Hfs g w Hg Hw) Hs) as [H1 H2]. now constructor.
        * destruct (tget (fd_name g) m') eqn:Hm'; [|constructor]. exfalso. apply (C3 (fd_name g)); [congruence|exact Hw].
  Qed.
End Main.

(** the message [fs] of type [n] *)
Definition wire_message (W : wenv) (p : schema) (n : text) (fs : list (text * pval)) : Prop :=
  wireable W p (w_depth W) false (mkF [] (FMsg n) false false None) (PMsg n fs).

Lemma message_survives W p n fs : wire_schema W p -> wire_message W p n fs -> small (write_message W p n fs) ->
  exists m, read_message W p n (write_message W p n fs) = Some m /\ alike p (PMsg n fs) (PMsg n m).
Proof.
  intros S H Hsm. unfold wire_message in H. inversion H as [ | | | k1 f1 w1 Hc Hcl | k f n' d fs' Hk Hl Hnd Hdecl Hfs Hriv Hdep]; subst; [inversion Hc|].
  destruct (lookup_In _ _ _ Hl) as [Hd Hname]. unfold write_message, read_message in *. rewrite Hl in *. destruct (put_fields_items W p d fs) as (l & Hp & Hput). rewrite Hput in *.
  destruct (read_all W p S (field_in p (get_fields W p k)) d fs Hd Hnd Hdecl Hriv) with (l := l) as (cs & m' & C1 & C2 & C3 & C4); [|exact Hp|exact Hsm|].
  { intros g w Hg Hw Hs Hsg. exact (survives_all W p S k true g w (Hfs g w Hg Hw) _ (ws_range W p S d g Hd Hg) Hsg Hs). }
  exists m'. rewrite C1, <- Hdep. split; [exact C2|].
  apply (al_msg p n d fs m' Hl C3). intros g Hg. destruct (tget (fd_name g) fs) as [w|] eqn:Hw.
  - destruct (C4 g w Hg Hw) as [[Hs ->]|[_ (w' & -> & Ha)]]; [|now constructor]. destruct (skipped_ok W p k g w (Hfs g w Hg Hw) Hs) as [H1 H2]. now constructor.
  - destruct (tget (fd_name g) m') eqn:Hm'; [|constructor]. exfalso. apply (C3 (fd_name g)); [congruence|exact Hw].
Qed.

(** messages that are alike read as the same value *)
Section Cel.
  Variables (C : cenv) (p : schema).
  Hypothesis Hoo : oneofs_ok p.

  Lemma default_cel g a : default_of p g = Some a -> to_cel C p a = default_to_cel C p g.
  Proof.
    intros H. unfold default_to_cel. rewrite H. unfold default_of in H. destruct (is_map p g); [now injection H as <-|]. destruct (fd_repeated g); [now injection H as <-|].
    destruct (fd_kind g); try discriminate; injection H as <-; reflexivity.
  Qed.
  Definition crel (g : fdesc) (x y : option (option value)) : Prop := x = y \/ (supports_presence g = false /\ x = Some (default_to_cel C p g) /\ y = None).
  Lemma read_crel todo cs ds : (forall g, In g todo -> crel g (tget (fd_name g) cs) (tget (fd_name g) ds)) -> read_fields C p todo cs = read_fields C p todo ds.
  Proof.
    induction todo as [|g todo IH]; intros H; [reflexivity|]. cbn [read_fields]. rewrite IH by (intros h Hh; apply H; now right).
    destruct (H g (or_introl eq_refl)) as [->|(Hp & -> & ->)]; [reflexivity|]. now rewrite Hp.
  Qed.
  Lemma unwrap_crel d todo cs ds : In d p -> incl todo (md_fields d) -> (forall g, In g todo -> crel g (tget (fd_name g) cs) (tget (fd_name g) ds)) -> unwrap_value C p todo cs = unwrap_value C p todo ds.
  Proof.
    intros Hd. induction todo as [|g todo IH]; intros Hi H; [reflexivity|]. cbn [unwrap_value]. rewrite IH by (try (intros h Hh; apply H; now right); intros h Hh; apply Hi; now right).
    destruct (H g (or_introl eq_refl)) as [->|(Hp & -> & ->)]; [reflexivity|]. destruct (fd_oneof g) eqn:Ho; [|reflexivity]. exfalso.
    assert (Hr : fd_repeated g = false) by (apply (Hoo d g Hd); [apply Hi; now left|congruence]). unfold supports_presence in Hp. rewrite Hr, Ho in Hp. cbn in Hp. now rewrite orb_true_r in Hp.
  Qed.
  Lemma alike_cel : forall v w, alike p v w -> to_cel C p v = to_cel C p w.
  Proof.
    fix IH 3. intros v w [x|l m Hf|l m Hf|n d fs gs Hl Hk Hg].
    - reflexivity.
    - cbn [to_cel]. f_equal. f_equal. clear -IH Hf. induction Hf as [|a b l m Ha Hf IHf]; [reflexivity|]. cbn [map]. now rewrite (IH a b Ha), IHf.
    - cbn [to_cel]. f_equal. f_equal. clear -IH Hf. induction Hf as [|a b l m [He Ha] Hf IHf]; [reflexivity|]. cbn [map]. now rewrite He, (IH _ _ Ha), IHf.
    - assert (Hc : forall g, In g (md_fields d) -> crel g (tget (fd_name g) (map (fun kv => (fst kv, to_cel C p (snd kv))) fs)) (tget (fd_name g) (map (fun kv => (fst kv, to_cel C p (snd kv))) gs))).
      { intros g Hgd. rewrite !tget_map. destruct (Hg g Hgd) as [|a b Ha|a Hp Hd]; cbn [option_map]; [now left|left; now rewrite (IH a b Ha)|right]. rewrite (default_cel g a Hd). auto. }
      destruct (lookup_In _ _ _ Hl) as [Hd Hname].
      assert (Hu : forall name ok, (forall a b, alike p a b -> ok a = ok b) -> unwrap_field C p d name ok fs (map (fun kv => (fst kv, to_cel C p (snd kv))) fs) = unwrap_field C p d name ok gs (map (fun kv => (fst kv, to_cel C p (snd kv))) gs)).
      { intros name ok Hok. unfold unwrap_field. destruct (field_by_name d name) as [g|] eqn:Hb; [|reflexivity]. apply find_some in Hb as [Hgd He]. apply text_eqb_eq in He. subst name.
        rewrite !tget_map. destruct (Hg g Hgd) as [|a b Ha|a Hp Hdf]; cbn [option_map]; [reflexivity|now rewrite (Hok a b Ha), (IH a b Ha)|]. rewrite Hdf. now rewrite (default_cel g a Hdf). }
      cbn [to_cel]. rewrite Hl. destruct (text_eqb n t_timestamp).
      { unfold timestamp_to_cel. destruct (field_by_name d (tx "seconds")) as [g1|] eqn:B1; [|reflexivity]. destruct (field_by_name d (tx "nanos")) as [g2|] eqn:B2; [|reflexivity].
        apply find_some in B1 as [G1 _]. apply find_some in B2 as [G2 _].
        assert (Hv : forall g, In g (md_fields d) -> prel (alike p) (match tget (fd_name g) fs with Some v => Some v | None => default_of p g end) (match tget (fd_name g) gs with Some v => Some v | None => default_of p g end)).
        { intros g Hgd. destruct (Hg g Hgd) as [|a b Ha|a Hp Hdf]; [destruct (default_of p g); [apply prel_some, al_one|constructor]|now constructor|rewrite Hdf; apply prel_some, al_one]. }
        pose proof (Hv g1 G1) as [|a1 b1 A1]; [reflexivity|]. pose proof (Hv g2 G2) as [|a2 b2 A2]; [destruct a1, b1; reflexivity|].
        inversion A1; subst; try reflexivity. inversion A2; subst; reflexivity. }
      destruct (text_eqb n t_struct); [apply Hu; intros a b Ha; now destruct Ha|].
      destruct (text_eqb n t_value); [apply (unwrap_crel d); [exact Hd|apply incl_refl|exact Hc]|].
      destruct (text_eqb n t_list); [apply Hu; intros a b Ha; now destruct Ha|].
      f_equal. apply read_crel. exact Hc.
  Qed.
  Lemma alike_message n fs gs : alike p (PMsg n fs) (PMsg n gs) -> message_to_cel C p n fs = message_to_cel C p n gs.
  Proof.
    intros H. inversion H as [x| | |n' d fs' gs' Hl Hk Hg]; subst; [reflexivity|]. unfold message_to_cel. rewrite Hl. f_equal. apply read_crel. intros g Hgd. rewrite !tget_map.
    destruct (Hg g Hgd) as [|a b Ha|a Hp Hd]; cbn [option_map]; [now left|left; now rewrite (alike_cel a b Ha)|right]. rewrite (default_cel g a Hd). auto.
  Qed.
End Cel.

(** * Values that can be sent *)
(** numbers of 64 bits, strings of text, floats as above, before and after narrowing *)
Definition leaf_ok (W : wenv) (C : cenv) (v : value) : Prop :=
  match v with
  | VBool _ | VBytes _ => True
  | VInt z => (-(2^63) <= z < 2^63)%Z
  | VUInt n => (n < 2^64)%N
  | VString s => utf8_valid s = true
  | VFloat b => clean W (PF64 b) /\ forall c, cv_narrow C b = Some c -> clean W (PF32 c)
  | _ => False
  end.
Definition key_ok (k : mkey) : Prop :=
  match k with KInt z => (-(2^63) <= z < 2^63)%Z | KUInt n => (n < 2^64)%N | KStr s => utf8_valid s = true | KBool _ => True end.
(** [tidy W C k v]: at most [k] structs, maps and timestamps inside each other *)
Inductive tidy (W : wenv) (C : cenv) : nat -> value -> Prop :=
| td_leaf k v : leaf_ok W C v -> tidy W C k v
| td_time k t : (-(2^63) <= t / 10^9 < 2^63)%Z -> tidy W C (S k) (VTimestamp t)
| td_list k l : (forall v, In v l -> tidy W C k v) -> tidy W C k (VList l)
| td_map k l : (forall x v, In (x, v) l -> key_ok x) -> (forall x v, In (x, v) l -> tidy W C k v) -> tidy W C (S k) (VMap l)
| td_struct k n fs : (forall x v, In (x, v) fs -> tidy W C k v) -> tidy W C (S k) (VStruct n fs).

Lemma set_field_nodup d f v m : NoDup (map fst m) -> NoDup (map fst (set_field d f v m)).
Proof.
  intros H. unfold set_field. apply (NoDup_aset text_eqb text_eqb_eq). revert m H. induction (md_fields d) as [|g l IH]; intros m H; cbn [fold_left]; [exact H|].
  apply IH. destruct (match fd_oneof f with Some _ => _ | None => _ end); [now apply (NoDup_adel text_eqb text_eqb_eq)|exact H].
Qed.
Lemma build_nodup d fc todo : forall m m', NoDup (map fst m) -> build_fields d todo fc m = Some m' -> NoDup (map fst m').
Proof.
  induction todo as [|f todo IH]; intros m m' Hm; cbn [build_fields]; [now intros [= <-]|]. destruct (tget (fd_name f) fc) as [c|]; [|now apply IH].
  destruct (c f) as [v|]; [|discriminate]. apply IH. now apply set_field_nodup.
Qed.
Lemma scalar_wire W C k v w n : fits_scalar C k v -> leaf_ok W C v -> scalar_to_proto C k v = Some w -> conf_scalar k w /\ clean W w /\ k <> FMsg n.
Proof.
  intros Hf Hl Hs. assert (Hnum : cel_number v) by (destruct v; try exact Logic.I; exact Hl). split; [now apply (scalar_conf C k v)|].
  destruct Hf as [b|k z Hk Hz|k z Hk|k m Hk Hm|k m Hk|b c H1 H2|b|s|s|l z Hz Hi]; try (cbn in Hk; repeat destruct Hk as [<-|Hk]; try destruct Hk); cbn in Hs; try (injection Hs as <-; cbn in *; split; [tauto|discriminate]).
  - rewrite H1 in Hs. injection Hs as <-. split; [|discriminate]. exact (proj2 Hl c H1).
  - destruct (_ && _)%bool; [|discriminate]. injection Hs as <-. split; [exact Logic.I|discriminate].
Qed.
Lemma time_fields d t : md_name d = tx "google.protobuf.Timestamp" -> md_fields d = [f_of "seconds" FInt64; f_of "nanos" FInt32] ->
  timestamp_to_proto d t = Some (PMsg (tx "google.protobuf.Timestamp") [(tx "seconds", PI64 (t / 1000000000)); (tx "nanos", PI32 (t mod 1000000000))]).
Proof.
  destruct d as [dn df de]. cbn [md_name md_fields]. intros -> ->. unfold timestamp_to_proto. generalize (t / 1000000000)%Z (t mod 1000000000)%Z. intros a b. reflexivity.
Qed.
Lemma fits_wire W C p : good p -> forall b f v, fits C p b f v -> forall k w, tidy W C k v -> to_proto C p b f v = Some w -> wireable W p k b f w.
Proof.
  intros G b f v H. induction H as [f e kf vf l Hm Hkf Hkn Hvf Hvn Hnd Hkeys Hvals IH|f l Hr Hnm Hl IH|f v Hr Hv IH|f v Hs|f t Hk Ht|f n d fs Hk Hord Hl Hc Hfs IH]; intros k w Htd Hp.
  - destruct (is_map_spec p f e Hm) as (Hmap & Hr & n & Hk & Hl). inversion Htd as [? ? X| | |k0 l0 T1 T2|]; subst; [destruct X|]. clear Htd.
    destruct (lookup_In _ _ _ Hl) as [Hd _]. pose proof (g_names p G e Hd) as Hn. pose proof (field_by_name_In e kf Hn Hkf) as Bk. pose proof (field_by_name_In e vf Hn Hvf) as Bv. rewrite Hkn in Bk. rewrite Hvn in Bv.
    cbn [to_proto] in Hp. rewrite Hmap in Hp. cbn [andb] in Hp. rewrite Hk, Hl, Bk, Bv in Hp. destruct (build_map _ []) as [m|] eqn:Hb; [|discriminate]. injection Hp as <-.
    destruct (build_map_In _ [] m ltac:(constructor) Hb) as [N1 N2].
    assert (Hin : forall x y, In (x, y) m -> exists x0 y0, In (x0, y0) l /\ key_to_proto x0 (fd_kind kf) = Some x /\ to_proto C p false vf y0 = Some y).
    { intros x y Hxy. destruct (N2 x y Hxy) as [[]|Hi]. apply in_map_iff in Hi as ([x0 y0] & He & Hi). injection He as E1 E2. eauto. }
    apply (wr_map W p k0 f e kf vf m Hm Hkf Hkn Hvf Hvn N1).
    + intros x y Hxy. destruct (Hin x y Hxy) as (x0 & y0 & H0 & H1 & _). pose proof (T1 x0 y0 H0) as Hok. pose proof (Hkeys x0 y0 H0) as Hfk.
      destruct Hfk as [b|kk z Hkk Hz|kk z Hkk|kk m0 Hkk Hz|kk m0 Hkk|s]; cbn in Hok.
      * injection H1 as <-. split; [constructor|discriminate].
      * cbn in Hkk. assert (x = MI32 z) as ->. { destruct Hkk as [<-|[<-|[<-|[]]]]; cbn in H1; injection H1 as <-; now rewrite as_i32_id. }
        split; [now apply ck_i32|discriminate].
      * cbn in Hkk. assert (x = MI64 z) as ->. { destruct Hkk as [<-|[<-|[<-|[]]]]; cbn in H1; now injection H1 as <-. }
        split; [now apply ck_i64|discriminate].
      * cbn in Hkk. assert (x = MU32 m0) as ->. { destruct Hkk as [<-|[<-|[]]]; cbn in H1; injection H1 as <-; now rewrite as_u32_id. }
        split; [now apply ck_u32|discriminate].
      * cbn in Hkk. assert (x = MU64 m0) as ->. { destruct Hkk as [<-|[<-|[]]]; cbn in H1; now injection H1 as <-. }
        split; [now apply ck_u64|discriminate].
      * injection H1 as <-. split; [constructor|]. now intros s' [= <-].
    + intros x y Hxy. destruct (Hin x y Hxy) as (x0 & y0 & H0 & _ & H2). exact (IH x0 y0 H0 k0 y (T2 x0 y0 H0) H2).
  - inversion Htd as [? ? X| |k0 l0 T| |]; subst; [destruct X|]. pose proof (not_map_spec p f Hnm) as Hmap.
    cbn [to_proto] in Hp. rewrite Hmap, Hr in Hp. cbn [andb] in Hp. destruct (all_some _) as [m|] eqn:Ha; [|discriminate]. injection Hp as <-.
    apply wr_list; [exact Hr|exact Hnm|]. intros y Hy. apply (all_some_In _ _ Ha) in Hy. apply in_map_iff in Hy as (y0 & Hy0 & Hi). exact (IH y0 Hi k y (T y0 Hi) Hy0).
  - rewrite to_proto_singular in Hp by exact Hr. apply wr_whole; [exact Hr|]. now apply IH.
  - assert (Hlf : leaf_ok W C v).
    { inversion Htd; subst; try assumption; inversion Hs. }
    rewrite to_proto_one in Hp. assert (Hsp : (forall n, fd_kind f <> FMsg n) /\ scalar_to_proto C (fd_kind f) v = Some w).
    { destruct (fd_kind f) eqn:Hk; try (split; [congruence|exact Hp]). exfalso. inversion Hs; subst; match goal with H : In (FMsg _) _ |- _ => cbn in H; intuition discriminate end. }
    destruct Hsp as [Hnm Hsp]. destruct (scalar_wire W C (fd_kind f) v w [] Hs Hlf Hsp) as (H1 & H2 & _). now apply wr_one.
  - inversion Htd as [? ? X|k0 t0 T| | |]; subst; [destruct X|]. rewrite to_proto_one, Hk in Hp. destruct (lookup p (tx "google.protobuf.Timestamp")) as [d|] eqn:Hl; [|discriminate].
    destruct (lookup_In _ _ _ Hl) as [Hd Hname]. pose proof (g_time p G d Hd Hname) as Hfields. pose proof (g_names p G d Hd) as Hn.
    change (text_eqb (tx "google.protobuf.Timestamp") t_timestamp) with true in Hp. cbv iota in Hp. 
    rewrite (time_fields d t Hname Hfields) in Hp. injection Hp as <-. set (secs := (t / 1000000000)%Z) in *. set (nan := (t mod 1000000000)%Z) in *.
    apply (wr_msg W p k0 f (tx "google.protobuf.Timestamp") d [(tx "seconds", PI64 secs); (tx "nanos", PI32 nan)]); [exact Hk|exact Hl| | | |].
    + repeat constructor; cbn; intuition discriminate.
    + intros x y Hi. rewrite Hfields. destruct Hi as [Hi|[Hi|[]]]; injection Hi as <- <-; [exists (f_of "seconds" FInt64)|exists (f_of "nanos" FInt32)]; (split; [cbn; tauto|reflexivity]).
    + intros g y Hg Hy. rewrite Hfields in Hg. destruct Hg as [<-|[<-|[]]]; cbn in Hy; injection Hy as <-; apply wr_whole; try reflexivity; apply wr_one; try exact Logic.I.
      * apply cs_i64; [cbn; tauto|exact T].
      * apply cs_i32; [cbn; tauto|]. pose proof (Z.mod_pos_bound t 1000000000 eq_refl). fold nan in H. lia.
    + intros g h Hg Hh (o & Ho & _). rewrite Hfields in Hg. destruct Hg as [<-|[<-|[]]]; discriminate Ho.
  - inversion Htd as [? ? X| | | |k0 n0 fs0 T]; subst; [destruct X|]. rewrite to_proto_one, Hk, Hl in Hp. destruct (build_fields _ _ _ _) as [m|] eqn:Hb; [|discriminate]. injection Hp as <-.
    destruct (lookup_In _ _ _ Hl) as [Hd _]. pose proof (g_names p G d Hd) as Hn. destruct (build_fields_conf C p d fs m Hn Hb) as [B1 B2].
    pose proof (build_nodup d _ _ [] m ltac:(constructor) Hb) as Hnd.
    apply (wr_msg W p k0 f n d m Hk Hl Hnd); [| |exact B2].
    + intros x y Hi. destruct (B1 x y (tget_In x y m Hnd Hi)) as (g & v & Hg & He & _). eauto.
    + intros g y Hg Hy. destruct (B1 _ _ Hy) as (g' & v & Hg' & He & Hv & Hpv).
      assert (g' = g) as ->. { pose proof (field_by_name_In d g Hn Hg) as A. pose proof (field_by_name_In d g' Hn Hg') as B. rewrite He in B. congruence. }
      apply (IH g v Hg Hv k0 y); [|exact Hpv]. apply (T (fd_name g) v). now apply tget_Some_In.
Qed.
Lemma value_wire W C p n d n' fs m : good p -> lookup p n = Some d -> (forall g v, In g (md_fields d) -> tget (fd_name g) fs = Some v -> fits C p true g v) ->
  tidy W C (w_depth W) (VStruct n' fs) -> cel_to_message C p n (VStruct n' fs) = Some m -> wire_message W p n m.
Proof.
  intros G Hl Hfit Htd Hc. inversion Htd as [? ? X| | | |k0 n0 fs0 T Hk0]; subst; [destruct X|]. unfold wire_message. rewrite <- Hk0.
  unfold cel_to_message in Hc. rewrite Hl in Hc. destruct (lookup_In _ _ _ Hl) as [Hd _]. pose proof (g_names p G d Hd) as Hn.
  destruct (build_fields_conf C p d fs m Hn Hc) as [B1 B2]. pose proof (build_nodup d _ _ [] m ltac:(constructor) Hc) as Hnd.
  apply (wr_msg W p k0 (mkF [] (FMsg n) false false None) n d m eq_refl Hl Hnd); [| |exact B2].
  - intros x y Hi. destruct (B1 x y (tget_In x y m Hnd Hi)) as (g & v & Hg & He & _). eauto.
  - intros g y Hg Hy. destruct (B1 _ _ Hy) as (g' & v & Hg' & He & Hv & Hpv).
    assert (g' = g) as ->. { pose proof (field_by_name_In d g Hn Hg) as A. pose proof (field_by_name_In d g' Hn Hg') as B. rewrite He in B. congruence. }
    apply (fits_wire W C p G true g v (Hfit g v Hg Hv) k0 y); [|exact Hpv]. apply (T (fd_name g) v). now apply tget_Some_In.
Qed.
Lemma wireable_conf W p k b f w : wireable W p k b f w -> conf conf_key p b f w.
Proof.
  induction 1 as [k f e kf vf l Hm Hkf Hkn Hvf Hvn Hnd Hkeys Hvals IH|k f l Hr Hnm Hl IH|k f w Hr Hw IH|k f w Hc Hcl|k f n d fs Hk Hl Hnd Hdecl Hfs IH Hriv].
  - apply (conf_map conf_key p f e kf vf l Hm Hkf Hkn Hvf Hvn Hnd); [|exact IH]. intros x w Hi. now destruct (Hkeys x w Hi).
  - now apply conf_list.
  - now apply conf_whole.
  - now apply conf_one.
  - apply (conf_msg conf_key p f n d fs Hk Hl); [|exact IH|exact Hriv]. intros x w Hx. apply tget_Some_In in Hx. eauto.
Qed.
Lemma wire_message_conforms W p n fs : wire_message W p n fs -> exists d, lookup p n = Some d /\ conforms conf_key p d fs.
Proof.
  intros H. apply wireable_conf in H. inversion H as [ | | |f w Hc|f n' d fs' Hk Hl H1 H2 H3]; subst; [inversion Hc|]. exists d. split; [exact Hl|]. now split.
Qed.

(** * C121 *)
(** C121, proved for messages of the declared type nested no deeper than the reader goes and, where
    the negative zero counts as the default, without negative zeros: what is read is what was written. *)
Theorem C121_messages_survive_the_wire_partial : forall W p n fs, wire_schema W p -> wire_message W p n fs -> small (write_message W p n fs) ->
  exists m, read_message W p n (write_message W p n fs) = Some m /\ alike p (PMsg n fs) (PMsg n m).
Proof. exact message_survives. Qed.
Print Assumptions C121_messages_survive_the_wire_partial.

(** CEL expressions see the same value in both *)
Theorem C121_read_as_the_same_value_partial : forall C W p n fs, wire_schema W p -> oneofs_ok p -> wire_message W p n fs -> small (write_message W p n fs) ->
  exists m, read_message W p n (write_message W p n fs) = Some m /\ message_to_cel C p n m = message_to_cel C p n fs.
Proof.
  intros C W p n fs S Hoo Hm Hsm. destruct (message_survives W p n fs S Hm Hsm) as (m & H1 & H2). exists m. split; [exact H1|]. symmetry. now apply alike_message.
Qed.
Print Assumptions C121_read_as_the_same_value_partial.

(** so different values have different bytes *)
Theorem C121_same_bytes_same_value_partial : forall C W p n fs gs, wire_schema W p -> oneofs_ok p -> wire_message W p n fs -> wire_message W p n gs -> small (write_message W p n fs) ->
  write_message W p n fs = write_message W p n gs -> message_to_cel C p n fs = message_to_cel C p n gs.
Proof.
  intros C W p n fs gs S Hoo Hf Hg Hsm He. pose proof Hsm as Hsm'. rewrite He in Hsm'. destruct (message_survives W p n fs S Hf Hsm) as (m & H1 & H2). destruct (message_survives W p n gs S Hg Hsm') as (m' & H3 & H4).
  rewrite He, H3 in H1. injection H1 as <-. rewrite (alike_message C p Hoo _ _ _ H2). symmetry. now apply alike_message.
Qed.
Print Assumptions C121_same_bytes_same_value_partial.

(** What the hypotheses leave out *)
(** fields numbered in the order of their declaration *)
Fixpoint index_of (f : text) (l : list fdesc) (i : N) : N :=
  match l with [] => 0%N | g :: l' => if text_eqb (fd_name g) f then i else index_of f l' (N.succ i) end.
Definition Wp (p : schema) (neg : bool) : wenv := mkWenv (fun n f => match lookup p n with Some d => index_of f (md_fields d) 1 | None => 0%N end) 101 neg.
Ltac schema_ok := constructor;
  [ intros d Hd; cbn in Hd; repeat destruct Hd as [<-|Hd]; try easy; cbn; repeat (constructor; [cbn; repeat (intros [H|H]; [discriminate H|revert H]); easy|]); constructor
  | intros d f Hd Hf; cbn in Hd; repeat destruct Hd as [<-|Hd]; cbn in Hf; try easy; repeat destruct Hf as [<-|Hf]; try easy; vm_compute; split; reflexivity
  | intros d f g Hd Hf Hg; cbn in Hd; repeat destruct Hd as [<-|Hd]; cbn in Hf, Hg; try easy; repeat destruct Hf as [<-|Hf]; try easy; repeat destruct Hg as [<-|Hg]; try easy; vm_compute; intros X; discriminate X
  | intros e f g Hd He Hf Hg; cbn in Hd; repeat destruct Hd as [<-|Hd]; try easy; try discriminate He; cbn in Hf; repeat destruct Hf as [<-|Hf]; try easy; (split; [reflexivity|intros (o & Ho & _); discriminate Ho]) ].

(** the text [s] is in [v], at any depth, as a string or as a key *)
Inductive has_string (s : text) : pval -> Prop :=
| hs_here : has_string s (PStr s)
| hs_list l w : In w l -> has_string s w -> has_string s (PList l)
| hs_key l w : In (MStr s, w) l -> has_string s (PMap l)
| hs_map l x w : In (x, w) l -> has_string s w -> has_string s (PMap l)
| hs_msg n fs f w : In (f, w) fs -> has_string s w -> has_string s (PMsg n fs).
Definition texts (v : pval) : Prop := forall s, has_string s v -> utf8_valid s = true.
Definition all_texts (fs : list (text * pval)) : Prop := forall f w, In (f, w) fs -> texts w.
Lemma texts_msg n fs : all_texts fs <-> texts (PMsg n fs).
Proof.
  split.
  - intros H s Hs. inversion Hs as [| | | |n' fs' f w Hi Hw]; subst. exact (H f w Hi s Hw).
  - intros H f w Hi s Hs. apply H. now apply (hs_msg s n fs f w).
Qed.
Lemma texts_list l : (forall w, In w l -> texts w) <-> texts (PList l).
Proof.
  split.
  - intros H s Hs. inversion Hs as [|l' w Hi Hw| | |]; subst. exact (H w Hi s Hw).
  - intros H w Hi s Hs. apply H. now apply (hs_list s l w).
Qed.
Lemma texts_map l : (forall x w, In (x, w) l -> texts (key_val x) /\ texts w) <-> texts (PMap l).
Proof.
  split.
  - intros H s Hs. inversion Hs as [| |l' w Hi|l' x w Hi Hw|]; subst; [|exact (proj2 (H x w Hi) s Hw)]. apply (proj1 (H (MStr s) w Hi)). constructor.
  - intros H x w Hi. split; intros s Hs; apply H; [|now apply (hs_map s l x w)]. destruct x; cbn in Hs; inversion Hs; subst. eapply hs_key; eassumption.
Qed.
Ltac plain := let s := fresh "s" in let H := fresh "H" in intros s H; inversion H.
Lemma texts_number k x v : as_number k x = Some v -> texts v.
Proof. destruct k, x; cbn; try discriminate; intros [= <-]; plain. Qed.
Lemma texts_scalar k c v : as_scalar k c = Some v -> texts v.
Proof.
  destruct k, c; cbn [as_scalar]; try discriminate; try apply texts_number; [|intros [= <-]; plain].
  destruct (utf8_valid _) eqn:Hu; [|discriminate]. intros [= <-] x Hs. now inversion Hs; subst.
Qed.
Lemma texts_packed k fuel : forall s l, take_packed fuel k s = Some l -> forall w, In w l -> texts w.
Proof.
  induction fuel as [|f IH]; intros s l; destruct s as [|a s]; cbn [take_packed]; try discriminate; try (intros [= <-] w []).
  destruct (take_number k (a :: s)) as [[v r]|] eqn:Hn; [|discriminate]. destruct (take_packed f k r) as [l'|] eqn:Hl; [|discriminate]. intros [= <-] w [<-|Hi]; [|now apply (IH r l' Hl)].
  assert (Hv : exists x, as_number k x = Some v); [|destruct Hv as (x & Hv); now apply texts_number in Hv].
  revert Hn. unfold take_number.
  assert (K : forall (r0 : option (N * text)) (cc : N -> wnum), match r0 with Some (x, r1) => match as_number k (cc x) with Some v0 => Some (v0, r1) | None => None end | None => None end = Some (v, r) -> exists x : wnum, as_number k x = Some v).
  { intros [[x r1]|] cc; [|discriminate]. destruct (as_number k (cc x)) eqn:Hx; [|discriminate]. intros [= -> _]. eauto. }
  destruct k; apply K.
Qed.
Lemma texts_unset p f v : unset p f = Some v -> texts v.
Proof.
  unfold unset, default_of. destruct (is_map p f); [intros [= <-]; apply texts_map; intros x w []|]. destruct (fd_repeated f); [intros [= <-]; apply texts_list; intros w []|].
  destruct (fd_kind f); intros [= <-]; try plain; [subst; reflexivity|easy].
Qed.
Lemma texts_key v x : val_key v = Some x -> texts v -> texts (key_val x).
Proof. destruct v; try discriminate; intros [= <-] H; exact H. Qed.
Lemma in_aset {K V} (eqb : K -> K -> bool) k (v : V) m x w : In (x, w) (aset eqb k v m) -> (w = v /\ (x = k \/ exists v', In (x, v') m)) \/ In (x, w) m.
Proof.
  induction m as [|[k' v'] m IH]; cbn [aset]; [intros [[= <- <-]|[]]; auto|]. destruct (eqb k k'); cbn [In].
  - intros [[= <- <-]|H]; [left; split; [reflexivity|]; first [left; reflexivity|right; eauto]|auto].
  - intros [H|H]; [auto|]. apply IH in H as [[-> [->|(v0 & H)]]|H]; auto. left. split; [reflexivity|]. right. eauto.
Qed.
Lemma texts_set d f v m : texts v -> all_texts m -> all_texts (set_field d f v m).
Proof.
  intros Hv Hm.
  assert (Hd : forall (oth : fdesc -> bool) l m, all_texts m -> all_texts (fold_left (fun m g => if oth g then adel text_eqb (fd_name g) m else m) l m)).
  { intros oth l. induction l as [|g l IH]; intros m0 H0; [exact H0|]. cbn [fold_left]. apply IH. destruct (oth g); [|exact H0].
    intros x w Hi. apply (In_adel text_eqb text_eqb_eq) in Hi as [Hi _]. now apply (H0 x w). }
  intros x w Hi. unfold set_field in Hi. cbv zeta in Hi. apply in_aset in Hi as [[-> _]|Hi]; [exact Hv|]. exact (Hd _ _ m Hm x w Hi).
Qed.
Lemma texts_tget f fs v : all_texts fs -> tget f fs = Some v -> texts v.
Proof. intros H Hg. apply tget_Some_In in Hg. exact (H _ _ Hg). Qed.
Lemma texts_fields W p k : forall d cs m m', get_fields W p k d cs m = Some m' -> all_texts m -> all_texts m'.
Proof.
  induction k as [|k IH]; intros d cs m m'; [discriminate|]. rewrite get_fields_S.
  assert (Hmsg : forall n s old v, message_in p (get_fields W p k) n s old = Some v -> all_texts old -> texts v).
  { intros n s old v. unfold message_in. destruct (lookup p n) as [d'|]; [|discriminate]. destruct (contents s) as [cs'|]; [|discriminate].
    destruct (get_fields W p k d' cs' old) as [fs|] eqn:Hf; [|discriminate]. intros [= <-] Ho. apply texts_msg. exact (IH _ _ _ _ Hf Ho). }
  assert (Hone : forall f c old v, single_in p (get_fields W p k) f c old = Some v -> (forall o, old = Some o -> texts o) -> texts v).
  { intros f c old v. unfold single_in. destruct (fd_kind f) eqn:Hk; try (intros H _; now apply texts_scalar in H). destruct c; [discriminate|].
    intros H Ho. apply (Hmsg _ _ _ _ H). unfold old_msg. destruct old as [[]|]; try (intros x w []). eapply texts_msg. now apply Ho. }
  assert (Hfld : forall f c old v, field_in p (get_fields W p k) f c old = Some v -> (forall o, old = Some o -> texts o) -> texts v).
  { intros f c old v H Ho. unfold field_in in H. destruct (is_map p f).
    - destruct (fd_kind f) as [ | | | | | | | | | | | | | | | |n]; try discriminate. destruct c as [|s]; [discriminate|]. unfold entry_in in H.
      destruct (lookup p n) as [e|]; [|discriminate]. destruct (message_in p (get_fields W p k) n s []) as [v0|] eqn:Hm; [|discriminate]. apply Hmsg in Hm; [|intros x w []].
      destruct v0 as [| | | | | | | | | |nm fs| |]; try discriminate. apply texts_msg in Hm.
      destruct (field_by_name e (tx "key")) as [kf|]; [|discriminate]. destruct (field_by_name e (tx "value")) as [vf|]; [|discriminate].
      destruct (match tget (tx "key") fs with Some k0 => Some k0 | None => unset p kf end) as [kv|] eqn:Hk; [|discriminate].
      destruct (match tget (tx "value") fs with Some k0 => Some k0 | None => unset p vf end) as [vv|] eqn:Hv; [|discriminate].
      assert (Tk : texts kv) by (destruct (tget (tx "key") fs) eqn:Hg; [injection Hk as <-; now apply texts_tget in Hg|now apply texts_unset in Hk]).
      assert (Tv : texts vv) by (destruct (tget (tx "value") fs) eqn:Hg; [injection Hv as <-; now apply texts_tget in Hg|now apply texts_unset in Hv]).
      destruct (val_key kv) as [x|] eqn:Hx; [|discriminate]. apply texts_key in Hx; [|exact Tk]. cbn in H. injection H as <-.
      assert (Hom : forall x w, In (x, w) (old_map old) -> texts (key_val x) /\ texts w).
      { unfold old_map. destruct old as [[]|]; try (intros ? ? []). apply texts_map. now apply Ho. }
      apply texts_map. intros y w Hi. apply in_aset in Hi as [[-> [->|(v' & Hi)]]|Hi]; auto. split; [|exact Tv]. now apply (Hom y v').
    - assert (Hol : forall w, In w (old_list old) -> texts w).
      { unfold old_list. destruct old as [[]|]; try (intros ? []). apply texts_list. now apply Ho. }
      destruct (fd_repeated f); [|now apply (Hone f c old)].
      assert (Hr : forall r, option_map (fun w => PList (old_list old ++ [w])) (single_in p (get_fields W p k) f c None) = Some r -> texts r).
      { intros r. destruct (single_in p (get_fields W p k) f c None) as [w|] eqn:Hs; [|discriminate]. intros [= <-]. apply Hone in Hs; [|discriminate].
        apply texts_list. intros y Hi. apply in_app_or in Hi as [Hi|[<-|[]]]; auto. }
      destruct (packable (fd_kind f)); [|now apply Hr]. destruct c as [x|s]; [now apply Hr|].
      destruct (take_packed (length s) (fd_kind f) s) as [l|] eqn:Hp; [|discriminate]. injection H as <-. apply texts_list. intros y Hi.
      apply in_app_or in Hi as [Hi|Hi]; [auto|]. now apply (texts_packed _ _ _ _ Hp). }
  revert m. induction cs as [|[n c] cs IHc]; intros m; cbn [steps]; [now intros [= <-]|]. destruct (find _ _) as [f|]; [|apply IHc].
  destruct (field_in p (get_fields W p k) f c (tget (fd_name f) m)) as [v|] eqn:Hf; [|discriminate]. intros H Hm. apply (IHc _ H). apply texts_set; [|exact Hm].
  apply (Hfld _ _ _ _ Hf). intros o Ho. now apply texts_tget in Ho.
Qed.
(** Whatever the bytes are, the strings of the message they are read as are text. *)
Theorem C121_strings_read_are_text : forall W p n bytes fs s, read_message W p n bytes = Some fs -> has_string s (PMsg n fs) -> utf8_valid s = true.
Proof.
  intros W p n bytes fs s H Hs. revert H. unfold read_message. destruct (lookup p n); [|discriminate]. destruct (contents bytes); [|discriminate]. intros H.
  apply texts_fields in H; [|intros f w []]. now apply (texts_msg n) in H; apply H.
Qed.
Print Assumptions C121_strings_read_are_text.

Definition pt : schema := [mkM (tx "T") [f_of "s" FString; f_of "b" FBytes] false].
Example C121_strings_ex : let rd s := read_message (Wp pt false) pt (tx "T") s in
  rd (len_field 1 (tx "hi") ++ len_field 2 ["255"%char]) = Some [(tx "s", PStr (tx "hi")); (tx "b", PBytes ["255"%char])] /\
  has_string (tx "hi") (PMsg (tx "T") [(tx "s", PStr (tx "hi")); (tx "b", PBytes ["255"%char])]) /\
  rd (len_field 1 ["255"%char]) = None.
Proof.
  split; [vm_compute; reflexivity|]. split; [|vm_compute; reflexivity]. apply (hs_msg _ _ _ (tx "s") (PStr (tx "hi"))); [now left|constructor].
Qed.

(** the sign of a zero is lost in a field without presence *)
Definition px : schema := [mkM (tx "X") [f_of "x" FDouble; f_of "kid" (FMsg (tx "X"))] false].
Theorem C121_sign_of_zero_refuted : exists W p n fs, wire_schema W p /\ (exists d, lookup p n = Some d /\ conforms conf_key p d fs) /\
  fs = [(tx "x", PF64 9223372036854775808)] /\ read_message W p n (write_message W p n fs) = Some [] /\
  message_to_cel Cd p n fs <> message_to_cel Cd p n [].
Proof.
  exists (Wp px true), px, (tx "X"). eexists. split; [schema_ok|]. split; [|split; [reflexivity|]; split; [vm_compute; reflexivity|vm_compute; intros X; discriminate X]].
  eexists. split; [reflexivity|]. split; [keys|]. split; [|lone]. each g w Hg Hw. apply conf_whole; [reflexivity|]. apply conf_one. constructor.
Qed.
Print Assumptions C121_sign_of_zero_refuted.

(** a message nested deeper than the reader goes is written, and not read *)
Fixpoint chain (k : nat) : list (text * pval) := match k with O => [] | S k' => [(tx "kid", PMsg (tx "X") (chain k'))] end.
Lemma chain_conforms k d : lookup px (tx "X") = Some d -> conforms conf_key px d (chain k).
Proof.
  intros [= <-]. induction k as [|k IH]; [split; [easy|split; [easy|now left]]|]. split; [|split].
  - cbn [chain]. intros x w Hx. apply tget_Some_In in Hx as [Hx|[]]. injection Hx as <- _. exists (f_of "kid" (FMsg (tx "X"))). split; [cbn; tauto|reflexivity].
  - intros g w Hg Hw. cbn in Hg. destruct Hg as [<-|[<-|[]]]; [discriminate Hw|]. injection Hw as <-. apply conf_whole; [reflexivity|]. destruct IH as (I1 & I2 & I3). eapply conf_msg; [reflexivity|reflexivity|exact I1|exact I2|exact I3].
  - lone.
Qed.
Theorem C121_deep_message_refuted : exists W p n fs, w_depth W = 101 /\ wire_schema W p /\ (exists d, lookup p n = Some d /\ conforms conf_key p d fs) /\
  List.length (write_message W p n fs) = 239 /\ read_message W p n (write_message W p n fs) = None.
Proof.
  exists (Wp px true), px, (tx "X"), (chain 101). split; [reflexivity|]. split; [schema_ok|]. split; [eexists; split; [reflexivity|now apply chain_conforms]|]. split; vm_compute; reflexivity.
Qed.
Print Assumptions C121_deep_message_refuted.
(** one level less is read *)
Example C121_deep_enough : read_message (Wp px true) px (tx "X") (write_message (Wp px true) px (tx "X") (chain 100)) = Some (chain 100).
Proof. vm_compute. reflexivity. Qed.
(** a message with a map of wrapped values, a timestamp and a list *)
Lemma wkt_wire b : wire_schema (Wp wkt b) wkt.
Proof. schema_ok. Qed.
Lemma wkt_oneofs : oneofs_ok wkt.
Proof. intros d f Hd Hf Ho. cbn in Hd. repeat destruct Hd as [<-|Hd]; cbn in Hf; try easy; repeat destruct Hf as [<-|Hf]; try easy; now destruct Ho. Qed.
Ltac each_pair := intros x w Hi; repeat destruct Hi as [Hi|Hi]; try easy; injection Hi as <- <-.
Ltac in_fields := each_pair; match goal with |- exists g, In g ?l /\ fd_name g = ?k => let r := eval vm_compute in (find (fun g => text_eqb (fd_name g) k) l) in match r with Some ?g => exists g end end; (split; [vm_compute; repeat (first [left; reflexivity|right])|reflexivity]).
Ltac no_dups := repeat (constructor; [cbn; repeat (intros [H|H]; [discriminate H|revert H]); easy|]); constructor.
Lemma reply_wire b : wire_message (Wp wkt b) wkt (tx "M") reply_m.
Proof.
  change 101 with (S 100). unfold wire_message. change (w_depth (Wp wkt b)) with (S (S (S (S 97)))).
  eapply wr_msg; [reflexivity|reflexivity|no_dups|in_fields| |lone]. each g w Hg Hw.
  - apply wr_whole; [reflexivity|]. eapply wr_msg; [reflexivity|reflexivity|no_dups|in_fields| |lone]. each g w Hg Hw.
    eapply (wr_map _ _ _ _ _ (f_of "key" FString) (f_of "value" (FMsg (tx "google.protobuf.Value")))); [exists (tx "google.protobuf.Struct.FieldsEntry"); repeat split|now left|reflexivity|right; now left|reflexivity|no_dups| |].
    + each_pair. split; [constructor|]. now intros s [= <-].
    + each_pair. eapply wr_msg; [reflexivity|reflexivity|no_dups|in_fields| |lone]. each g w Hg Hw. apply wr_whole; [reflexivity|]. apply wr_one; [constructor|reflexivity].
  - apply wr_whole; [reflexivity|]. eapply wr_msg; [reflexivity|reflexivity|no_dups|in_fields| |lone]. each g w Hg Hw. apply wr_whole; [reflexivity|]. apply wr_one; [apply cs_i64; [now left|easy]|exact Logic.I].
  - apply wr_list; [reflexivity| |].
    + intros e (n & _ & H & _). discriminate H.
    + intros w [<-|[<-|[]]]; (apply wr_one; [constructor|reflexivity]).
Qed.
Example C121_ex : wire_schema (Wp wkt true) wkt /\ oneofs_ok wkt /\ wire_message (Wp wkt true) wkt (tx "M") reply_m /\ small (write_message (Wp wkt true) wkt (tx "M") reply_m) /\
  List.length (write_message (Wp wkt true) wkt (tx "M") reply_m) = 21 /\ read_message (Wp wkt true) wkt (tx "M") (write_message (Wp wkt true) wkt (tx "M") reply_m) = Some reply_m.
Proof. split; [apply wkt_wire|]. split; [exact wkt_oneofs|]. split; [apply reply_wire|]. split; [vm_compute; reflexivity|]. split; vm_compute; reflexivity. Qed.
