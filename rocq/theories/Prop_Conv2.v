(** C83-C86: what protobuf conversion keeps, and what it accepts. *)
From Coq Require Import String List NArith ZArith Bool Lia.
From Verif Require Import Base Value Conv Prop_Conv.
Import ListNotations.
Open Scope list_scope.

(** * C83: which fields of a struct reach the message *)

(** [g] is set in [fs] *)
Definition sets {A} (fs : list (text * A)) (g : fdesc) : Prop := tget (fd_name g) fs <> None.

Lemma rival_sym f g : rival f g -> rival g f.
Proof. intros (o & H1 & H2 & H3). exists o. auto. Qed.
Lemma rival_dec f g : {rival f g} + {~ rival f g}.
Proof.
  unfold rival. destruct (fd_oneof f) as [a|]; [|right; now intros (o & H & _)].
  destruct (fd_oneof g) as [b|]; [|right; now intros (o & _ & H & _)].
  destruct (N.eq_dec a b) as [->|Hne]; [|right; intros (o & H1 & H2 & _); congruence].
  destruct (text_eq_dec (fd_name f) (fd_name g)) as [He|He]; [right; now intros (o & _ & _ & H)|left; eauto].
Qed.

Lemma build_shape d (fs : list (text * (fdesc -> option pval))) todo : forall m m', incl todo (md_fields d) -> NoDup (map fd_name (md_fields d)) -> NoDup (map fd_name todo) ->
  build_fields d todo fs m = Some m' ->
  (forall g c, In g todo -> tget (fd_name g) fs = Some c -> c g <> None) /\
  (forall l1 g l2 c, todo = l1 ++ g :: l2 -> tget (fd_name g) fs = Some c -> (forall h, In h l2 -> sets fs h -> ~ rival g h) -> tget (fd_name g) m' = c g) /\
  (forall l1 g l2 h, todo = l1 ++ g :: l2 -> In h l2 -> sets fs h -> rival g h -> tget (fd_name g) m' = None) /\
  (forall g, In g (md_fields d) -> (forall h, In h todo -> fd_name h = fd_name g -> ~ sets fs h) ->
     ((forall h, In h todo -> sets fs h -> ~ rival g h) -> tget (fd_name g) m' = tget (fd_name g) m) /\
     ((exists h, In h todo /\ sets fs h /\ rival g h) -> tget (fd_name g) m' = None)) /\
  (forall k, (forall h, In h (md_fields d) -> fd_name h <> k) -> tget k m' = tget k m).
Proof.
  induction todo as [|f todo IH]; intros m m' Hin Hnd Hn; cbn [build_fields].
  - intros [= <-]. split; [easy|]. split; [intros [|] ? ? ? H; discriminate H|]. split; [intros [|] ? ? ? H; discriminate H|].
    split; [|easy]. intros g _ _. split; [easy|]. now intros (h & [] & _).
  - cbn in Hn. inversion Hn as [|? ? Hx Hn']; subst. assert (Hin' : incl todo (md_fields d)) by (intros g Hg; apply Hin; now right).
    assert (Hf : In f (md_fields d)) by (apply Hin; now left).
    assert (Huniq : forall g, In g (md_fields d) -> fd_name g = fd_name f -> g = f).
    { intros g Hg He. assert (Some g = Some f); [|congruence]. rewrite <- (field_by_name_In d g Hnd Hg), <- (field_by_name_In d f Hnd Hf). now rewrite He. }
    destruct (tget (fd_name f) fs) as [c|] eqn:Hc.
    + destruct (c f) as [v|] eqn:Hv; [|discriminate]. intros Hb.
      destruct (IH _ _ Hin' Hnd Hn' Hb) as (H1 & H2 & H3 & H4 & H5).
      assert (Hnf : forall h, In h todo -> fd_name h = fd_name f -> ~ sets fs h) by (intros h Hh He; exfalso; apply Hx; rewrite <- He; now apply in_map).
      split; [intros g c' [<-|Hg] Hg'; [congruence|now apply (H1 g)]|].
      split.
      { intros [|x l1] g l2 c' He Hg Hr; injection He as -> ->.
        - rewrite Hg in Hc. injection Hc as ->. rewrite Hv. destruct (H4 g Hf Hnf) as [H4a _]. rewrite H4a; [apply set_field_same|]. exact Hr.
        - now apply (H2 l1 g l2). }
      split.
      { intros [|x l1] g l2 h He Hh Hs Hr; injection He as -> ->.
        - destruct (H4 g Hf Hnf) as [_ H4b]. apply H4b. eauto.
        - now apply (H3 l1 g l2 h). }
      split.
      { intros g Hg Hns. assert (Hgf : fd_name g <> fd_name f).
        { intros He. apply (Hns f (or_introl eq_refl) (eq_sym He)). unfold sets. congruence. }
        destruct (H4 g Hg) as [H4a H4b]; [intros h Hh; apply Hns; now right|].
        destruct (set_field_other d f v m (fd_name g) Hgf) as [S1 S2].
        split.
        - intros Hr. rewrite H4a by (intros h Hh; apply Hr; now right). apply S2. intros h Hh Hr' He.
          apply (Hr f (or_introl eq_refl)); [unfold sets; congruence|]. apply rival_sym.
          assert (h = g) as ->; [|exact Hr']. assert (Some h = Some g); [|congruence]. rewrite <- (field_by_name_In d g Hnd Hg), <- (field_by_name_In d h Hnd Hh). now rewrite He.
        - intros (h & [<-|Hh] & Hs & Hr); [|apply H4b; eauto].
          assert (Hz : tget (fd_name g) (set_field d f v m) = None) by (apply S1; exists g; split; [exact Hg|]; split; [now apply rival_sym|easy]).
          destruct (Exists_dec (fun h => sets fs h /\ rival g h) todo) as [He|He].
          + intros x. unfold sets. destruct (tget (fd_name x) fs); [|right; now intros []]. destruct (rival_dec g x); [left; split; [congruence|easy]|right; tauto].
          + apply H4b. apply Exists_exists in He as (x & Hx' & Hs' & Hr'). eauto.
          + rewrite H4a; [exact Hz|]. intros x Hx' Hs' Hr'. apply He. apply Exists_exists. eauto. }
      intros k Hk. rewrite (H5 k Hk). destruct (set_field_other d f v m k) as [_ S2]; [intros ->; now apply (Hk f Hf)|]. apply S2. intros g Hg _. now apply Hk.
    + intros Hb. destruct (IH _ _ Hin' Hnd Hn' Hb) as (H1 & H2 & H3 & H4 & H5).
      split; [intros g c' [<-|Hg] Hg'; [congruence|now apply (H1 g)]|].
      split; [intros [|x l1] g l2 c' He Hg; injection He as -> ->; [congruence|now apply (H2 l1 g l2)]|].
      split.
      { intros [|x l1] g l2 h He Hh Hs Hr; injection He as -> ->; [|now apply (H3 l1 g l2 h)].
        destruct (H4 g Hf) as [_ H4b]; [intros y Hy He; exfalso; apply Hx; rewrite <- He; now apply in_map|]. apply H4b. eauto. }
      split; [|exact H5].
      intros g Hg Hns. destruct (H4 g Hg) as [H4a H4b]; [intros h Hh; apply Hns; now right|]. split.
      * intros Hr. apply H4a. intros h Hh. apply Hr. now right.
      * intros (h & [<-|Hh] & Hs & Hr); [now destruct Hs|apply H4b; eauto].
Qed.

(** C83, proved for the fields the message declares: each one set is in the message,
    converted, unless another member of its oneof declared later is set too; nothing else
    is in the message; one field that cannot be converted makes the whole fail *)
Theorem C83_declared_fields_arrive_partial C p n n' d fs m : good p -> lookup p n = Some d -> cel_to_message C p n (VStruct n' fs) = Some m ->
  (forall l1 g l2 v, md_fields d = l1 ++ g :: l2 -> tget (fd_name g) fs = Some v -> (forall h, In h l2 -> sets fs h -> ~ rival g h) ->
     exists w, to_proto C p true g v = Some w /\ tget (fd_name g) m = Some w) /\
  (forall k, tget k m <> None -> tget k fs <> None) /\
  (forall g v, In g (md_fields d) -> tget (fd_name g) fs = Some v -> to_proto C p true g v <> None).
Proof.
  intros G Hl. unfold cel_to_message. rewrite Hl. intros Hb. destruct (lookup_In _ _ _ Hl) as [Hd _]. pose proof (g_names p G d Hd) as Hn.
  set (fc := map (fun kv => (fst kv, fun g => to_proto C p true g (snd kv))) fs) in *.
  assert (Hfc : forall k, tget k fc = option_map (fun v g => to_proto C p true g v) (tget k fs)) by (intros k; apply (tget_map (fun v g => to_proto C p true g v))).
  destruct (build_shape d fc (md_fields d) [] m (incl_refl _) Hn Hn Hb) as (H1 & H2 & H3 & H4 & H5).
  assert (Hc : forall g v, In g (md_fields d) -> tget (fd_name g) fs = Some v -> to_proto C p true g v <> None).
  { intros g v Hg Hv. apply (H1 g (fun g => to_proto C p true g v) Hg). rewrite Hfc, Hv. reflexivity. }
  assert (Hs : forall h, sets fc h -> sets fs h) by (intros h; unfold sets; rewrite Hfc; destruct (tget (fd_name h) fs); easy).
  split; [|split; [|exact Hc]].
  - intros l1 g l2 v He Hv Hr. destruct (to_proto C p true g v) as [w|] eqn:Hw; [|exfalso; apply (Hc g v); auto; rewrite He; apply in_elt].
    exists w. split; [easy|]. rewrite <- Hw. apply (H2 l1 g l2 (fun g => to_proto C p true g v) He); [now rewrite Hfc, Hv|]. intros h Hh Hs'. apply Hr; auto.
  - intros k Hk Hf. apply Hk. destruct (in_dec text_eq_dec k (map fd_name (md_fields d))) as [Hi|Hi].
    + apply in_map_iff in Hi as (g & <- & Hg). destruct (H4 g Hg) as [H4a H4b].
      { intros h Hh He. unfold sets. rewrite He, Hfc, Hf. now intros H. }
      destruct (Exists_dec (fun h => sets fc h /\ rival g h) (md_fields d)) as [He|He].
      * intros x. unfold sets. destruct (tget (fd_name x) fc); [|right; now intros []]. destruct (rival_dec g x); [left; split; [congruence|easy]|right; tauto].
      * apply H4b. apply Exists_exists in He as (x & Hx' & Hs' & Hr'). eauto.
      * rewrite H4a; [reflexivity|]. intros x Hx' Hs' Hr'. apply He. apply Exists_exists. eauto.
    + rewrite H5; [reflexivity|]. intros h Hh He. apply Hi. rewrite <- He. now apply in_map.
Qed.
(** C83 fails for oneofs: of two members set, one is dropped *)
Theorem C83_oneof_member_is_dropped_refuted : exists d fs m g v, lookup demo (tx "T") = Some d /\ In g (md_fields d) /\ tget (fd_name g) fs = Some v /\
  cel_to_message Cd demo (tx "T") (VStruct (tx "T") fs) = Some m /\ tget (fd_name g) m = None.
Proof.
  eexists. exists [(tx "b", VString (tx "x")); (tx "a", VString (tx "y"))]. eexists. exists (mkF (tx "a") FString false true (Some 0%N)), (VString (tx "y")).
  split; [reflexivity|]. split; [cbn; tauto|]. split; [reflexivity|]. split; [reflexivity|reflexivity].
Qed.
(** C83 fails for a struct of another type: it is accepted and its fields are dropped *)
Theorem C83_other_type_is_accepted_refuted : exists n n' fs, n <> n' /\ fs <> [] /\ complete (mkM n' [f_of "name" FString] false) fs /\ In (mkM n' [f_of "name" FString] false) demo /\
  cel_to_message Cd demo n (VStruct n' fs) = Some [].
Proof.
  exists (tx "T"), (tx "U"), [(tx "name", VString (tx "x"))]. split; [discriminate|]. split; [discriminate|].
  split; [split; [declared|split; [present|alone]]|]. split; [cbn; tauto|reflexivity].
Qed.
Example C83_ex : exists m, cel_to_message Cd demo (tx "T") (VStruct (tx "T") tree) = Some m /\ tget (tx "id") m = Some (PI32 7) /\ tget (tx "b") m = Some (PStr (tx "x")).
Proof. eexists. split; [reflexivity|]. split; reflexivity. Qed.

(** * C84: converted values have the declared type *)
Inductive conf_scalar : fkind -> pval -> Prop :=
| cs_bool b : conf_scalar FBool (PBool b)
| cs_i32 k z : In k [FInt32; FSint32; FSfixed32] -> (-(2^31) <= z < 2^31)%Z -> conf_scalar k (PI32 z)
| cs_i64 k z : In k [FInt64; FSint64; FSfixed64] -> (-(2^63) <= z < 2^63)%Z -> conf_scalar k (PI64 z)
| cs_u32 k n : In k [FUint32; FFixed32] -> (n < 2^32)%N -> conf_scalar k (PU32 n)
| cs_u64 k n : In k [FUint64; FFixed64] -> (n < 2^64)%N -> conf_scalar k (PU64 n)
| cs_f32 b : conf_scalar FFloat (PF32 b)
| cs_f64 b : conf_scalar FDouble (PF64 b)
| cs_str s : conf_scalar FString (PStr s)
| cs_bytes s : conf_scalar FBytes (PBytes s)
| cs_enum l z : (-(2^31) <= z < 2^31)%Z -> conf_scalar (FEnum l) (PEnum z).
Inductive conf_key : fkind -> pkey -> Prop :=
| ck_bool b : conf_key FBool (MBool b)
| ck_i32 k z : In k [FInt32; FSint32; FSfixed32] -> (-(2^31) <= z < 2^31)%Z -> conf_key k (MI32 z)
| ck_i64 k z : In k [FInt64; FSint64; FSfixed64] -> (-(2^63) <= z < 2^63)%Z -> conf_key k (MI64 z)
| ck_u32 k n : In k [FUint32; FFixed32] -> (n < 2^32)%N -> conf_key k (MU32 n)
| ck_u64 k n : In k [FUint64; FFixed64] -> (n < 2^64)%N -> conf_key k (MU64 n)
| ck_str s : conf_key FString (MStr s).
(** [conf K p whole f w]: [w] has the type of [f]; [K] says which map keys are acceptable *)
Inductive conf (K : fkind -> pkey -> Prop) (p : schema) : bool -> fdesc -> pval -> Prop :=
| conf_map f e kf vf l : map_entry p f e -> In kf (md_fields e) -> fd_name kf = tx "key" -> In vf (md_fields e) -> fd_name vf = tx "value" ->
    NoDup (map fst l) -> (forall k w, In (k, w) l -> K (fd_kind kf) k) -> (forall k w, In (k, w) l -> conf K p false vf w) -> conf K p true f (PMap l)
| conf_list f l : fd_repeated f = true -> (forall e, ~ map_entry p f e) -> (forall w, In w l -> conf K p false f w) -> conf K p true f (PList l)
| conf_whole f w : fd_repeated f = false -> conf K p false f w -> conf K p true f w
| conf_one f w : conf_scalar (fd_kind f) w -> conf K p false f w
| conf_msg f n d fs : fd_kind f = FMsg n -> lookup p n = Some d ->
    (forall k w, tget k fs = Some w -> exists g, In g (md_fields d) /\ fd_name g = k) ->
    (forall g w, In g (md_fields d) -> tget (fd_name g) fs = Some w -> conf K p true g w) ->
    (forall g h, In g (md_fields d) -> In h (md_fields d) -> rival g h -> tget (fd_name g) fs = None \/ tget (fd_name h) fs = None) ->
    conf K p false f (PMsg n fs).
(** a CEL value whose numbers are 64-bit numbers *)
Inductive cel_wf : value -> Prop :=
| cw_leaf v : (forall l, v <> VList l) -> (forall l, v <> VMap l) -> (forall n l, v <> VStruct n l) -> cel_number v -> (forall t, v = VTimestamp t -> (-(2^63) <= t / 10^9 < 2^63)%Z) -> cel_wf v
| cw_list l : (forall v, In v l -> cel_wf v) -> cel_wf (VList l)
| cw_map l : (forall k v, In (k, v) l -> match k with KInt z => (-(2^63) <= z < 2^63)%Z | KUInt n => (n < 2^64)%N | _ => True end) -> (forall k v, In (k, v) l -> cel_wf v) -> cel_wf (VMap l)
| cw_struct n l : (forall k v, In (k, v) l -> cel_wf v) -> cel_wf (VStruct n l).

(** map keys as converted: right, or a boolean or string whatever the field's key type *)
Definition loose_key (k : fkind) (x : pkey) : Prop := conf_key k x \/ (exists b, x = MBool b) \/ (exists s, x = MStr s).

Lemma build_map_In l : forall acc m, NoDup (map fst acc) -> build_map l acc = Some m ->
  NoDup (map fst m) /\ forall k w, In (k, w) m -> In (k, w) acc \/ In (Some k, Some w) l.
Proof.
  induction l as [|[[k|] [v|]] l IH]; intros acc m Hn; cbn; try discriminate.
  - intros [= <-]. auto.
  - intros Hb. destruct (IH _ _ (NoDup_aset pkey_eqb pkey_eqb_eq k v acc Hn) Hb) as [H1 H2]. split; [exact H1|].
    intros k' w Hi. destruct (H2 k' w Hi) as [Ha|Hl]; [|auto].
    assert (Hor : In (k', w) acc \/ (k', w) = (k, v)).
    { clear - Ha. induction acc as [|[a b] acc IHa]; cbn in *; [destruct Ha as [Ha|[]]; auto|].
      destruct (pkey_eqb k a); cbn in Ha; destruct Ha as [Ha|Ha]; auto. destruct (IHa Ha); auto. }
    destruct Hor as [|[= -> ->]]; auto.
Qed.
Lemma all_some_In {A} (l : list (option A)) : forall m, all_some l = Some m -> forall x, In x m -> In (Some x) l.
Proof.
  induction l as [|[x|] l IH]; cbn; intros m; [intros [= <-]; easy| |discriminate].
  destruct (all_some l) as [m'|]; [|discriminate]. intros [= <-] y [<-|Hy]; [now left|right; now apply (IH m')].
Qed.
Lemma key_loose k x y : key_to_proto x k = Some y -> match x with KInt z => (-(2^63) <= z < 2^63)%Z | KUInt n => (n < 2^64)%N | _ => True end -> loose_key k y.
Proof.
  assert (H32 : forall z, (-(2^31) <= as_i32 z < 2^31)%Z) by (intros z; unfold as_i32; pose proof (Z.mod_pos_bound (z + 2147483648) 4294967296); lia).
  assert (Hu32 : forall n, (as_u32 n < 2^32)%N) by (intros n; apply N.mod_lt; discriminate).
  destruct x as [z|n|b|s]; cbn [key_to_proto].
  - destruct k; try discriminate; intros [= <-] Hb; left; (apply ck_i32; [cbn; tauto|apply H32]) || (apply ck_i64; [cbn; tauto|exact Hb]).
  - destruct k; try discriminate; intros [= <-] Hb; left; (apply ck_u32; [cbn; tauto|apply Hu32]) || (apply ck_u64; [cbn; tauto|exact Hb]).
  - intros [= <-] _. right. left. eauto.
  - intros [= <-] _. right. right. eauto.
Qed.
Lemma scalar_conf C k v w : scalar_to_proto C k v = Some w -> cel_number v -> conf_scalar k w.
Proof.
  assert (H32 : forall z, (-(2^31) <= as_i32 z < 2^31)%Z) by (intros z; unfold as_i32; pose proof (Z.mod_pos_bound (z + 2147483648) 4294967296); lia).
  assert (Hu32 : forall n, (as_u32 n < 2^32)%N) by (intros n; apply N.mod_lt; discriminate).
  destruct k; cbn [scalar_to_proto]; destruct v; try discriminate; try (intros [= <-] Hb; now constructor);
    try (intros [= <-] Hb; (apply cs_i32; [cbn; tauto|apply H32]) || (apply cs_i64; [cbn; tauto|exact Hb]) || (apply cs_u32; [cbn; tauto|apply Hu32]) || (apply cs_u64; [cbn; tauto|exact Hb])).
  - destruct (cv_narrow C bits); [|discriminate]. intros [= <-] _. constructor.
  - destruct (_ && _)%bool eqn:H; [|discriminate]. intros [= <-] _. apply andb_true_iff in H as [H1 H2]. apply andb_true_iff in H1 as [H0 H1]. apply Z.leb_le in H0, H1. apply cs_enum. lia.
Qed.
Lemma split_in {A} (x y : A) l : In x l -> In y l -> x <> y -> exists l1 l2, l = l1 ++ x :: l2 /\ In y l2 \/ l = l1 ++ y :: l2 /\ In x l2.
Proof.
  induction l as [|a l IH]; [easy|]. intros [->|Hx] [->|Hy] Hne; [easy|exists [], l; now left|exists [], l; now right|].
  destruct (IH Hx Hy Hne) as (l1 & l2 & [[-> H]|[-> H]]); exists (a :: l1), l2; auto.
Qed.
Lemma build_fields_conf C p d fs m : NoDup (map fd_name (md_fields d)) ->
  build_fields d (md_fields d) (map (fun kv => (fst kv, fun g => to_proto C p true g (snd kv))) fs) [] = Some m ->
  (forall k w, tget k m = Some w -> exists g v, In g (md_fields d) /\ fd_name g = k /\ tget k fs = Some v /\ to_proto C p true g v = Some w) /\
  (forall g h, In g (md_fields d) -> In h (md_fields d) -> rival g h -> tget (fd_name g) m = None \/ tget (fd_name h) m = None).
Proof.
  intros Hn. set (fc := map (fun kv => (fst kv, fun g => to_proto C p true g (snd kv))) fs). intros Hb.
  assert (Hfc : forall k, tget k fc = option_map (fun v g => to_proto C p true g v) (tget k fs)) by (intros k; apply (tget_map (fun v g => to_proto C p true g v))).
  destruct (build_shape d fc (md_fields d) [] m (incl_refl _) Hn Hn Hb) as (H1 & H2 & H3 & H4 & H5).
  assert (Hset : forall g, In g (md_fields d) -> ~ sets fc g -> tget (fd_name g) m = None).
  { intros g Hg Hs. destruct (H4 g Hg) as [H4a H4b].
    { intros h Hh He. unfold sets in *. now rewrite He. }
    destruct (Exists_dec (fun h => sets fc h /\ rival g h) (md_fields d)) as [He|He].
    * intros x. unfold sets. destruct (tget (fd_name x) fc); [|right; now intros []]. destruct (rival_dec g x); [left; split; [congruence|easy]|right; tauto].
    * apply H4b. apply Exists_exists in He as (x & Hx' & Hs' & Hr'). eauto.
    * rewrite H4a; [reflexivity|]. intros x Hx' Hs' Hr'. apply He. apply Exists_exists. eauto. }
  split.
  - intros k w Hk. destruct (in_dec text_eq_dec k (map fd_name (md_fields d))) as [Hi|Hi].
    2:{ rewrite H5 in Hk; [discriminate|]. intros h Hh He. apply Hi. rewrite <- He. now apply in_map. }
    apply in_map_iff in Hi as (g & <- & Hg). destruct (tget (fd_name g) fs) as [v|] eqn:Hv.
    2:{ rewrite Hset in Hk; [discriminate|exact Hg|]. unfold sets. rewrite Hfc, Hv. now intros H. }
    exists g, v. split; [exact Hg|]. split; [easy|]. split; [easy|].
    destruct (in_split g (md_fields d) Hg) as (l1 & l2 & Hl).
    destruct (Exists_dec (fun h => sets fc h /\ rival g h) l2) as [He|He].
    + intros x. unfold sets. destruct (tget (fd_name x) fc); [|right; now intros []]. destruct (rival_dec g x); [left; split; [congruence|easy]|right; tauto].
    + apply Exists_exists in He as (x & Hx' & Hs' & Hr'). rewrite (H3 l1 g l2 x Hl Hx' Hs' Hr') in Hk. discriminate.
    + rewrite <- Hk. symmetry. apply (H2 l1 g l2 (fun g => to_proto C p true g v) Hl); [now rewrite Hfc, Hv|]. intros x Hx' Hs' Hr'. apply He. apply Exists_exists. eauto.
  - intros g h Hg Hh Hr. destruct (tget (fd_name g) fc) as [c|] eqn:Hc1; [|left; apply Hset; [exact Hg|unfold sets; rewrite Hc1; now intros H]].
    destruct (tget (fd_name h) fc) as [c'|] eqn:Hc2; [|right; apply Hset; [exact Hh|unfold sets; rewrite Hc2; now intros H]].
    assert (Hne : g <> h) by (intros ->; now destruct Hr as (o & _ & _ & Hr)).
    destruct (split_in g h _ Hg Hh Hne) as (l1 & l2 & [[He Hi]|[He Hi]]).
    + left. apply (H3 l1 g l2 h He Hi); [unfold sets; congruence|exact Hr].
    + right. apply (H3 l1 h l2 g He Hi); [unfold sets; congruence|now apply rival_sym].
Qed.

Lemma converted_conf C p : good p -> forall v w f x, In f (flat_map md_fields p) -> cel_wf v -> to_proto C p w f v = Some x -> conf loose_key p w f x.
Proof.
  intros G.
  assert (Hone : forall v f x, In f (flat_map md_fields p) -> cel_wf v ->
    (forall n fs, v = VStruct n fs -> forall kv, In kv fs -> forall w g y, In g (flat_map md_fields p) -> cel_wf (snd kv) -> to_proto C p w g (snd kv) = Some y -> conf loose_key p w g y) ->
    to_proto C p false f v = Some x -> conf loose_key p false f x).
  { intros v f x Hin Hw IH. rewrite to_proto_one. destruct (fd_kind f) eqn:Hk;
      try (intros Hs; apply conf_one; rewrite Hk; apply (scalar_conf C _ v x Hs); inversion Hw; subst; easy).
    destruct (lookup p name) as [d|] eqn:Hl; [|discriminate]. destruct (lookup_In _ _ _ Hl) as [Hd Hnm]. pose proof (g_names p G d Hd) as Hn. destruct v; try discriminate.
    - destruct (build_fields _ _ _ _) as [m|] eqn:Hb; [|discriminate]. intros [= <-]. destruct (build_fields_conf C p d fields m Hn Hb) as [B1 B2].
      apply (conf_msg _ _ _ _ d); [exact Hk|exact Hl| | |exact B2].
      + intros k w Hkw. destruct (B1 k w Hkw) as (g & v & Hg & He & _). eauto.
      + intros g w Hg Hkw. destruct (B1 _ _ Hkw) as (g' & v & Hg' & He & Hv & Hw').
        assert (g' = g) as -> by (assert (Some g' = Some g); [|congruence]; rewrite <- (field_by_name_In d g Hn Hg), <- (field_by_name_In d g' Hn Hg'); now rewrite He).
        apply (aget_In text_eqb text_eqb_eq) in Hv. apply (IH _ _ eq_refl (fd_name g, v) Hv true g w); [apply in_flat_map; eauto| |exact Hw'].
        inversion Hw as [? ? ? Hst|?|?|? ? Hw2]; subst; [now destruct (Hst name0 fields)|]. exact (Hw2 _ _ Hv).
    - destruct (text_eqb name t_timestamp) eqn:Ht; [|discriminate]. apply text_eqb_eq in Ht. subst name. pose proof (g_time p G d Hd Ht) as Hf.
      assert (Hb1 : (-(2^63) <= nanos / 10^9 < 2^63)%Z) by (inversion Hw as [? ? ? ? ? Hts|?|?|? ?]; subst; now apply Hts).
      assert (Hb2 : (-(2^31) <= nanos mod 10^9 < 2^31)%Z) by (pose proof (Z.mod_pos_bound nanos (10^9)); lia).
      unfold timestamp_to_proto, field_by_name, set_field. rewrite Hf. change (10^9)%Z with 1000000000%Z in *. revert Hb1 Hb2. generalize (nanos / 1000000000)%Z, (nanos mod 1000000000)%Z.
      intros a b Ha Hb. match goal with |- ?l = _ -> _ => change l with (Some (PMsg (md_name d) [(tx "seconds", PI64 a); (tx "nanos", PI32 b)])) end. intros [= <-]. rewrite Ht in *. 
      apply (conf_msg _ _ _ _ d); [exact Hk|exact Hl| | |].
      + intros k w Hkw. rewrite Hf. apply (aget_In text_eqb text_eqb_eq) in Hkw. destruct Hkw as [Hkw|[Hkw|[]]]; injection Hkw as <- <-; [exists (f_of "seconds" FInt64)|exists (f_of "nanos" FInt32)]; (split; [|reflexivity]); cbn; auto.
      + intros g w Hg. rewrite Hf in Hg. destruct Hg as [<-|[<-|[]]]; intros Hkw; injection Hkw as <-; (apply conf_whole; [reflexivity|]); apply conf_one; [apply cs_i64|apply cs_i32]; cbn; auto.
      + intros g h Hg _ (o & Ho & _). rewrite Hf in Hg. destruct Hg as [<-|[<-|[]]]; discriminate Ho. }
  assert (Hsing : forall v, (forall w f x, In f (flat_map md_fields p) -> cel_wf v -> to_proto C p w f v = Some x -> w = false -> conf loose_key p w f x) ->
    (forall l, v <> VList l) -> (forall l, v <> VMap l) -> forall w f x, In f (flat_map md_fields p) -> cel_wf v -> to_proto C p w f v = Some x -> conf loose_key p w f x).
  { intros v Hv Hnl Hnm [|] f x Hin Hw Ht; [|now apply Hv].
    destruct (fd_repeated f) eqn:Hr; [|rewrite to_proto_singular in Ht by exact Hr; apply conf_whole; [exact Hr|now apply (Hv false)]].
    exfalso. destruct v; cbn [to_proto] in Ht; rewrite ?Hr in Ht; destruct (is_map p f); cbn [andb] in Ht; try discriminate; (now apply (Hnl l)) || (now apply (Hnm l)). }
  apply (value_ind' (fun v => forall w f x, In f (flat_map md_fields p) -> cel_wf v -> to_proto C p w f v = Some x -> conf loose_key p w f x)).
  1-7: intros; (eapply Hsing; eauto; [intros; subst; eapply Hone; eauto; discriminate|discriminate..]).
  - intros l Hl [|] f x Hin Hw Ht; [|eapply Hone; eauto; discriminate].
    cbn [to_proto] in Ht. destruct (is_map p f) eqn:Hm; cbn [andb] in Ht; [discriminate|]. destruct (fd_repeated f) eqn:Hr; cbn [andb] in Ht.
    + destruct (all_some _) as [m|] eqn:Ha; [|discriminate]. injection Ht as <-. apply conf_list; [exact Hr| |].
      * intros e He. destruct (is_map_spec p f e He) as [He' _]. congruence.
      * intros y Hy. apply (all_some_In _ _ Ha) in Hy. apply in_map_iff in Hy as (v & Hv & Hi). rewrite Forall_forall in Hl. apply (Hl v Hi); auto.
        inversion Hw as [? Hnl|? Hw'|?|? ?]; subst; [now destruct (Hnl l)|]. auto.
    + rewrite <- (to_proto_one C p f (VList l)) in Ht. apply conf_whole; [exact Hr|]. eapply Hone; eauto; discriminate.
  - intros l Hl [|] f x Hin Hw Ht; [|eapply Hone; eauto; discriminate].
    cbn [to_proto] in Ht. destruct (is_map p f) eqn:Hm; cbn [andb] in Ht.
    + unfold is_map in Hm. destruct (fd_repeated f) eqn:Hr; [cbn [andb] in Hm|discriminate]. destruct (fd_kind f) eqn:Hk; try discriminate.
      destruct (lookup p name) as [e|] eqn:Hle; [|discriminate]. destruct (lookup_In _ _ _ Hle) as [He _]. pose proof (g_names p G e He) as Hne.
      destruct (field_by_name e (tx "key")) as [kf|] eqn:Hkf; [|discriminate]. destruct (field_by_name e (tx "value")) as [vf|] eqn:Hvf; [|discriminate].
      apply find_some in Hkf as [Hk1 Hk2]. apply find_some in Hvf as [Hv1 Hv2]. apply text_eqb_eq in Hk2, Hv2.
      destruct (build_map _ _) as [m|] eqn:Hb; [|discriminate]. injection Ht as <-. destruct (build_map_In _ [] m (NoDup_nil _) Hb) as [B1 B2].
      assert (B3 : forall k w, In (k, w) m -> exists x v, In (x, v) l /\ key_to_proto x (fd_kind kf) = Some k /\ to_proto C p false vf v = Some w).
      { intros k w Hkw. destruct (B2 k w Hkw) as [[]|Hi]. apply in_map_iff in Hi as ([x v] & Hx & Hi). injection Hx as H1 H2. exists x, v. auto. }
      inversion Hw as [? ? Hnl|?|? Hwk Hwv|? ?]; subst; [now destruct (Hnl l)|].
      apply (conf_map _ _ f e kf vf); auto.
      * exists name. auto.
      * intros k w Hkw. destruct (B3 k w Hkw) as (x & v & Hi & H1 & _). exact (key_loose _ _ _ H1 (Hwk x v Hi)).
      * intros k w Hkw. destruct (B3 k w Hkw) as (x & v & Hi & _ & H2). rewrite Forall_forall in Hl. apply (Hl (x, v) Hi); auto; [apply in_flat_map; eauto|exact (Hwv x v Hi)].
    + destruct (fd_repeated f) eqn:Hr; cbn [andb] in Ht; [discriminate|].
      rewrite <- (to_proto_one C p f (VMap l)) in Ht. apply conf_whole; [exact Hr|]. eapply Hone; eauto; discriminate.
  - intros n l Hl. apply Hsing; [|discriminate..]. intros w f x Hin Hw Ht ->. apply (Hone (VStruct n l) f x Hin Hw); [|exact Ht].
    intros n' fs [= <- <-] kv Hkv w' g y Hg Hwk Hy. rewrite Forall_forall in Hl. now apply (Hl kv Hkv).
  - intros; (eapply Hsing; eauto; [intros; subst; eapply Hone; eauto; discriminate|discriminate..]).
  - intros; (eapply Hsing; eauto; [intros; subst; eapply Hone; eauto; discriminate|discriminate..]).
Qed.

(** C84, proved except for map keys that are booleans or strings *)
Theorem C84_converted_values_conform_partial C p f v w : good p -> In f (flat_map md_fields p) -> cel_wf v ->
  to_proto C p true f v = Some w -> conf loose_key p true f w.
Proof. intros G. now apply converted_conf. Qed.
(** C84 fails for map keys: a string is accepted as a key of a map keyed by numbers *)
Theorem C84_string_key_in_number_map_refuted : exists f v w, In f (flat_map md_fields demo) /\ cel_wf v /\
  to_proto Cd demo true f v = Some w /\ ~ conf conf_key demo true f w.
Proof.
  exists (r_of "tags" (FMsg (tx "T.Tags"))), (VMap [(KStr (tx "x"), VStruct (tx "U") [])]). eexists. split; [cbn; tauto|]. split.
  { apply cw_map; intros k v [H|[]]; injection H as <- <-; [easy|]. now apply cw_struct. }
  split; [reflexivity|]. intros H. inversion H as [? e kf vf l (n & _ & Hk & Hl & _) Hkf Hkn Hvf Hvn _ Hkey _| |f w Hr| | ]; subst; [|discriminate Hr].
  injection Hk as <-. injection Hl as <-. cbn in Hkf. destruct Hkf as [<-|[<-|[]]]; [|discriminate Hkn].
  specialize (Hkey _ _ (or_introl eq_refl)). inversion Hkey.
Qed.
Example C84_ex : cel_wf (VList [VStruct (tx "T") leaf]) /\ exists w, to_proto Cd demo true (r_of "kids" (FMsg (tx "T"))) (VList [VStruct (tx "T") leaf]) = Some w.
Proof.
  split; [|eexists; reflexivity]. apply cw_list. intros v [<-|[]]. apply cw_struct. intros k v Hi. cbn in Hi.
  repeat destruct Hi as [Hi|Hi]; try easy; injection Hi as <- <-; first [apply cw_list; easy|apply cw_map; easy|apply cw_leaf; easy].
Qed.

Print Assumptions C83_declared_fields_arrive_partial.
Print Assumptions C83_oneof_member_is_dropped_refuted.
Print Assumptions C83_other_type_is_accepted_refuted.
Print Assumptions C84_converted_values_conform_partial.
Print Assumptions C84_string_key_in_number_map_refuted.
