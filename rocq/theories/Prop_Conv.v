(** C65-C67: protobuf conversion. *)
From Coq Require Import String List NArith ZArith Bool Lia.
From Verif Require Import Base Value Conv.
Import ListNotations.
Open Scope list_scope.

(** * C67: registration of struct types *)

(** every message kind names a message of the pool *)
Definition closed (p : schema) : Prop :=
  forall d f n, In d p -> In f (md_fields d) -> fd_kind f = FMsg n -> exists e, lookup p n = Some e.
(** message types reachable through fields *)
Inductive reaches (p : schema) : text -> text -> Prop :=
| reach_self n : reaches p n n
| reach_step n d f m k : lookup p n = Some d -> In f (md_fields d) -> fd_kind f = FMsg m -> reaches p m k -> reaches p n k.
(** the CEL type of a field *)
Inductive typed (p : schema) (f : fdesc) : ctype -> Prop :=
| ty_map n e : fd_repeated f = true -> fd_kind f = FMsg n -> lookup p n = Some e -> md_entry e = true -> typed p f CMap
| ty_list : fd_repeated f = true -> (forall n e, fd_kind f = FMsg n -> lookup p n = Some e -> md_entry e = false) -> typed p f CList
| ty_bool : fd_repeated f = false -> fd_kind f = FBool -> typed p f CBool
| ty_int : fd_repeated f = false -> In (fd_kind f) [FInt32; FSint32; FSfixed32; FInt64; FSint64; FSfixed64] -> typed p f CInt
| ty_enum l : fd_repeated f = false -> fd_kind f = FEnum l -> typed p f CInt
| ty_uint : fd_repeated f = false -> In (fd_kind f) [FUint32; FFixed32; FUint64; FFixed64] -> typed p f CUInt
| ty_double : fd_repeated f = false -> In (fd_kind f) [FFloat; FDouble] -> typed p f CDouble
| ty_string : fd_repeated f = false -> fd_kind f = FString -> typed p f CString
| ty_bytes : fd_repeated f = false -> fd_kind f = FBytes -> typed p f CBytes
| ty_time : fd_repeated f = false -> fd_kind f = FMsg (tx "google.protobuf.Timestamp") -> typed p f CTimestamp
| ty_struct n : fd_repeated f = false -> fd_kind f = FMsg n -> n <> tx "google.protobuf.Timestamp" -> typed p f (CStruct n).

Lemma lookup_In p n d : lookup p n = Some d -> In d p /\ md_name d = n.
Proof.
  induction p as [|e p IH]; cbn; [discriminate|]. destruct (text_eqb (md_name e) n) eqn:He.
  - intros [= <-]. apply text_eqb_eq in He. auto.
  - intros H. destruct (IH H). auto.
Qed.
Lemma msg_kinds_spec d n : In n (msg_kinds d) <-> exists f, In f (md_fields d) /\ fd_kind f = FMsg n.
Proof.
  unfold msg_kinds. rewrite in_flat_map. split; intros (f & Hf & H); exists f; (split; [exact Hf|]).
  - destruct (fd_kind f); cbn in H; try easy. destruct H as [<-|[]]. reflexivity.
  - rewrite H. now left.
Qed.
Lemma mem_text_In x l : mem_text x l = true <-> In x l.
Proof.
  unfold mem_text. rewrite existsb_exists. split; [intros (y & Hy & He); apply text_eqb_eq in He; now subst|intros H; exists x; split; [exact H|apply text_eqb_refl]].
Qed.

(** pushes still possible *)
Definition left_over (p : schema) (visited : list text) : nat :=
  fold_right (fun d n => (if mem_text (md_name d) visited then 0 else List.length (msg_kinds d)) + n) 0 p.
Lemma left_over_mono p n visited : left_over p (n :: visited) <= left_over p visited.
Proof.
  induction p as [|d p IH]; cbn [left_over fold_right]; [lia|]. fold (left_over p (n :: visited)). fold (left_over p visited).
  assert (Hm : mem_text (md_name d) visited = true -> mem_text (md_name d) (n :: visited) = true) by (rewrite !mem_text_In; now right).
  destruct (mem_text (md_name d) visited); [rewrite (Hm eq_refl); lia|]. destruct (mem_text (md_name d) (n :: visited)); lia.
Qed.
Lemma left_over_step p n d visited : lookup p n = Some d -> mem_text n visited = false ->
  List.length (msg_kinds d) + left_over p (n :: visited) <= left_over p visited.
Proof.
  intros Hl Hv. induction p as [|e p IH]; cbn in Hl; [discriminate|].
  cbn [left_over fold_right]. fold (left_over p (n :: visited)). fold (left_over p visited).
  destruct (text_eqb (md_name e) n) eqn:He.
  - injection Hl as ->. apply text_eqb_eq in He. rewrite He, Hv. replace (mem_text n (n :: visited)) with true by (symmetry; apply mem_text_In; now left).
    pose proof (left_over_mono p n visited). lia.
  - specialize (IH Hl). assert (Hm : mem_text (md_name e) (n :: visited) = mem_text (md_name e) visited) by (cbn; now rewrite He).
    rewrite Hm. lia.
Qed.
Lemma pushes_left p : pushes p = left_over p [].
Proof. unfold pushes, left_over. induction p as [|d p IH]; cbn; [easy|]. now rewrite IH. Qed.

Lemma NoDup_snoc {A} (l : list A) x : NoDup l -> ~ In x l -> NoDup (l ++ [x]).
Proof.
  induction l as [|y l IHl]; cbn; intros N Hx; [constructor; [easy|constructor]|].
  inversion N as [|? ? Hy Hl]; subst. constructor; [|apply IHl; [exact Hl|intros H; apply Hx; now right]].
  rewrite in_app_iff. intros [H|[H|[]]]; [easy|apply Hx; now left].
Qed.

Section Collect.
  Variable p : schema.
  Variable root : text.
  Hypothesis Hc : closed p.
  Record inv (todo visited : list text) (defs : list structdef) : Prop := {
    in_known : forall n, In n todo -> exists d, lookup p n = Some d;
    in_vknown : forall n, In n visited -> exists d, lookup p n = Some d;
    in_reach : forall n, In n todo \/ In n visited -> reaches p root n;
    in_closed : forall n d m, In n visited -> lookup p n = Some d -> In m (msg_kinds d) -> In m todo \/ In m visited;
    in_root : In root todo \/ In root visited;
    in_nodup : NoDup (map fst defs);
    in_defs : forall n, In n (map fst defs) <-> exists d, In n visited /\ lookup p n = Some d /\ md_entry d = false;
    in_form : forall n fs, In (n, fs) defs -> exists d, lookup p n = Some d /\ (n, fs) = to_struct_def p d }.
  Lemma reaches_trans a b c : reaches p a b -> reaches p b c -> reaches p a c.
  Proof. induction 1; [easy|]. intros H'. eapply reach_step; eauto. Qed.
  Lemma collect_inv fuel : forall todo visited defs, inv todo visited defs -> List.length todo + left_over p visited <= fuel ->
    exists out vis, collect p fuel todo visited defs = Some out /\ inv [] vis out.
  Proof.
    induction fuel as [|fuel IH]; intros [|n todo] visited defs Hi Hf.
    - cbn. eauto.
    - cbn in Hf. lia.
    - cbn. eauto.
    - cbn [collect]. destruct (mem_text n visited) eqn:Hv.
      + apply IH; [|cbn in Hf; lia]. apply mem_text_In in Hv. destruct Hi as [K VK R C O N D F]. constructor; auto.
        * intros m Hm. apply K. now right.
        * intros m [Hm|Hm]; apply R; cbn; auto.
        * intros a d m Ha Hl Hm. destruct (C a d m Ha Hl Hm) as [[<-|]|]; auto.
        * destruct O as [[<-|]|]; auto.
      + destruct (in_known _ _ _ Hi n (or_introl eq_refl)) as [d Hd]. rewrite Hd.
        destruct (lookup_In _ _ _ Hd) as [Hin Hnm]. assert (Hnv : ~ In n visited) by (intros H; apply mem_text_In in H; congruence).
        apply IH.
        * destruct Hi as [K VK R C O N D F]. constructor.
          -- intros m Hm. apply in_app_or in Hm as [Hm|Hm]; [|apply K; now right]. apply in_rev, msg_kinds_spec in Hm as (f & Hf' & Hk). now apply (Hc d f m).
          -- intros m [<-|Hm]; [eauto|auto].
          -- assert (Hn : reaches p root n) by (apply R; left; now left).
             intros m [Hm|[<-|Hm]]; [|exact Hn|apply R; auto].
             apply in_app_or in Hm as [Hm|Hm]; [|apply R; left; now right]. apply in_rev, msg_kinds_spec in Hm as (f & Hf' & Hk).
             apply (reaches_trans root n); [exact Hn|]. eapply reach_step; eauto. constructor.
          -- intros a e m [<-|Ha] Hl Hm.
             ++ rewrite Hd in Hl. injection Hl as <-. left. apply in_or_app. left. now apply in_rev in Hm.
             ++ destruct (C a e m Ha Hl Hm) as [[<-|H]|H]; [right; now left|left; apply in_or_app; now right|right; now right].
          -- destruct O as [[<-|H]|H]; [right; now left|left; apply in_or_app; now right|right; now right].
          -- destruct (md_entry d) eqn:Hen; [exact N|]. rewrite map_app. cbn. rewrite Hnm.
             assert (Hx : ~ In n (map fst defs)) by (rewrite D; intros (x & Hx & _); easy).
             now apply NoDup_snoc.
          -- intros m. destruct (md_entry d) eqn:Hen.
             ++ rewrite D. split; [intros (x & Hx & Hl & He); exists x; split; [now right|easy]|].
                intros (x & [<-|Hx] & Hl & He); [congruence|exists x; easy].
             ++ rewrite map_app, in_app_iff, D. cbn. rewrite Hnm. split.
                ** intros [(x & Hx & Hl & He)|[<-|[]]]; [exists x; split; [now right|easy]|exists d; split; [now left|easy]].
                ** intros (x & [<-|Hx] & Hl & He); [right; now left|left; exists x; easy].
          -- intros m fs Hm. destruct (md_entry d); [now apply F|]. apply in_app_or in Hm as [Hm|[Hm|[]]]; [now apply F|].
             exists d. assert (m = n) as -> by (unfold to_struct_def in Hm; rewrite Hnm in Hm; congruence). split; [exact Hd|now symmetry].
        * pose proof (left_over_step p n d visited Hd Hv). rewrite app_length, rev_length. cbn in Hf. lia.
  Qed.
End Collect.

Theorem C67_reachable_types_are_declared p n : closed p -> (exists d, lookup p n = Some d) ->
  exists defs, collect_struct_defs p n = Some defs /\ NoDup (map fst defs) /\
    (forall m, In m (map fst defs) <-> reaches p n m /\ exists d, lookup p m = Some d /\ md_entry d = false) /\
    (forall m fs, In (m, fs) defs -> exists d, lookup p m = Some d /\ Forall2 (fun f ft => fst ft = fd_name f /\ typed p f (snd ft)) (md_fields d) fs).
Proof.
  intros Hc Hr. destruct (collect_inv p n Hc (S (pushes p)) [n] [] []) as (defs & vis & He & Hi).
  - constructor; cbn; try easy.
    + now intros m [<-|[]].
    + intros m [[<-|[]]|[]]. constructor.
    + auto.
    + constructor.
    + split; [easy|]. now intros (d & [] & _).
  - rewrite pushes_left. cbn. lia.
  - exists defs. split; [exact He|]. destruct Hi as [_ VK R C O N D F]. split; [exact N|]. split.
    + assert (Hall : forall a b, reaches p a b -> In a vis -> In b vis).
      { induction 1 as [a|a d f m k Hl Hf Hk _ IH]; [easy|]. intros Ha. apply IH. destruct (C a d m Ha Hl) as [[]|H]; [|exact H].
        apply msg_kinds_spec. eauto. }
      destruct O as [[]|O]. intros m. rewrite D. split.
      * intros (d & Hm & Hd). split; [apply R; now right|eauto].
      * intros [Hm (d & Hd)]. exists d. split; [now apply (Hall n m)|exact Hd].
    + intros m fs Hm. destruct (F m fs Hm) as (d & Hl & [= Hn ->]). exists d. split; [exact Hl|].
      clear. induction (md_fields d) as [|f l IH]; cbn; constructor; [|exact IH]. cbn. split; [easy|].
      unfold is_map. destruct (fd_repeated f) eqn:Hr; cbn [andb].
      * destruct (fd_kind f) eqn:Hk; try (apply ty_list; [exact Hr|congruence]).
        destruct (lookup p name) as [e|] eqn:Hl; [|apply ty_list; [exact Hr|congruence]].
        destruct (md_entry e) eqn:Hen; [now apply (ty_map p f name e)|apply ty_list; [exact Hr|congruence]].
      * destruct (fd_kind f) eqn:Hk; cbn [kind_type]; try (apply ty_int; [exact Hr|rewrite Hk; cbn; tauto]); try (apply ty_uint; [exact Hr|rewrite Hk; cbn; tauto]); try (apply ty_double; [exact Hr|rewrite Hk; cbn; tauto]).
        -- now apply ty_bool.
        -- now apply ty_string.
        -- now apply ty_bytes.
        -- now apply (ty_enum p f numbers).
        -- destruct (text_eqb name t_timestamp) eqn:Ht.
           ++ apply text_eqb_eq in Ht. subst name. now apply ty_time.
           ++ apply ty_struct; [easy|easy|]. intros ->. unfold t_timestamp in Ht. rewrite text_eqb_refl in Ht. discriminate.
Qed.

(** a recursive schema with a map: T has itself as a child and a map to U; V is not reached *)
Definition f_of n k := mkF (tx n) k false false None.
Definition r_of n k := mkF (tx n) k true false None.
Definition demo : schema :=
  [ mkM (tx "T") [f_of "id" FInt32; f_of "big" FInt64; f_of "count" FUint32; r_of "kids" (FMsg (tx "T")); r_of "tags" (FMsg (tx "T.Tags")); mkF (tx "a") FString false true (Some 0%N); mkF (tx "b") FString false true (Some 0%N); f_of "when" (FMsg (tx "google.protobuf.Timestamp")); f_of "any" (FMsg (tx "google.protobuf.Value")); f_of "level" (FEnum [0%Z; 1%Z])] false;
    mkM (tx "T.Tags") [f_of "key" FInt32; f_of "value" (FMsg (tx "U"))] true;
    mkM (tx "U") [f_of "name" FString] false;
    mkM (tx "V") [f_of "t" (FMsg (tx "T"))] false;
    mkM (tx "google.protobuf.Timestamp") [f_of "seconds" FInt64; f_of "nanos" FInt32] false;
    mkM (tx "google.protobuf.Value") [mkF (tx "string_value") FString false true (Some 0%N)] false ].
Lemma demo_closed : closed demo.
Proof. intros d f n Hd Hf Hk. cbn in Hd. repeat destruct Hd as [<-|Hd]; cbn in Hf; try easy; repeat destruct Hf as [<-|Hf]; cbn in Hk; try easy; injection Hk as <-; vm_compute; eauto. Qed.
Example C67_ex : closed demo /\ option_map (map fst) (collect_struct_defs demo (tx "T")) =
  Some [tx "T"; tx "google.protobuf.Value"; tx "google.protobuf.Timestamp"; tx "U"].
Proof. split; [exact demo_closed|reflexivity]. Qed.

(** * C65: round trips *)

(** equal up to the order in which struct fields and map entries are listed *)
Inductive orel (R : value -> value -> Prop) : option value -> option value -> Prop :=
| orel_none : orel R None None
| orel_some a b : R a b -> orel R (Some a) (Some b).
Inductive same : value -> value -> Prop :=
| same_eq v : same v v
| same_list l m : Forall2 same l m -> same (VList l) (VList m)
| same_map l m : (forall k, orel same (aget mkey_eqb k l) (aget mkey_eqb k m)) -> same (VMap l) (VMap m)
| same_struct n l m : (forall k, orel same (tget k l) (tget k m)) -> same (VStruct n l) (VStruct n m).

(** what fits a scalar field *)
Inductive fits_scalar (C : cenv) : fkind -> value -> Prop :=
| fs_bool b : fits_scalar C FBool (VBool b)
| fs_i32 k z : In k [FInt32; FSint32; FSfixed32] -> (-(2^31) <= z < 2^31)%Z -> fits_scalar C k (VInt z)
| fs_i64 k z : In k [FInt64; FSint64; FSfixed64] -> fits_scalar C k (VInt z)
| fs_u32 k n : In k [FUint32; FFixed32] -> (n < 2^32)%N -> fits_scalar C k (VUInt n)
| fs_u64 k n : In k [FUint64; FFixed64] -> fits_scalar C k (VUInt n)
| fs_float b c : cv_narrow C b = Some c -> cv_widen C c = b -> fits_scalar C FFloat (VFloat b)
| fs_double b : fits_scalar C FDouble (VFloat b)
| fs_string s : fits_scalar C FString (VString s)
| fs_bytes s : fits_scalar C FBytes (VBytes s)
| fs_enum l z : (-(2^31) <= z < 2^31)%Z -> In z l -> fits_scalar C (FEnum l) (VInt z).
Inductive fits_key : fkind -> mkey -> Prop :=
| fk_bool b : fits_key FBool (KBool b)
| fk_i32 k z : In k [FInt32; FSint32; FSfixed32] -> (-(2^31) <= z < 2^31)%Z -> fits_key k (KInt z)
| fk_i64 k z : In k [FInt64; FSint64; FSfixed64] -> fits_key k (KInt z)
| fk_u32 k n : In k [FUint32; FFixed32] -> (n < 2^32)%N -> fits_key k (KUInt n)
| fk_u64 k n : In k [FUint64; FFixed64] -> fits_key k (KUInt n)
| fk_str s : fits_key FString (KStr s).

(** messages the conversion treats as ordinary *)
Definition ordinary (n : text) : Prop :=
  n <> tx "google.protobuf.Timestamp" /\ n <> tx "google.protobuf.Struct" /\ n <> tx "google.protobuf.Value" /\ n <> tx "google.protobuf.ListValue".
Definition has_presence (f : fdesc) : Prop :=
  fd_repeated f = false /\ (fd_explicit f = true \/ fd_oneof f <> None \/ exists n, fd_kind f = FMsg n).
(** which fields a struct for the message [d] sets: only declared ones, all those without
    presence, at most one of each oneof *)
Definition complete (d : mdesc) (fs : list (text * value)) : Prop :=
  (forall k v, In (k, v) fs -> exists g, In g (md_fields d) /\ fd_name g = k) /\
  (forall g, In g (md_fields d) -> tget (fd_name g) fs = None -> has_presence g) /\
  (forall g h o, In g (md_fields d) -> In h (md_fields d) -> fd_oneof g = Some o -> fd_oneof h = Some o ->
     tget (fd_name g) fs <> None -> tget (fd_name h) fs <> None -> fd_name g = fd_name h).
Definition map_entry (p : schema) (f : fdesc) (e : mdesc) : Prop :=
  exists n, fd_repeated f = true /\ fd_kind f = FMsg n /\ lookup p n = Some e /\ md_entry e = true.

(** [fits C p w f v]: [v] fits the field [f] as a whole, or as one element of it *)
Inductive fits (C : cenv) (p : schema) : bool -> fdesc -> value -> Prop :=
| fits_map f e kf vf l : map_entry p f e -> In kf (md_fields e) -> fd_name kf = tx "key" -> In vf (md_fields e) -> fd_name vf = tx "value" ->
    NoDup (map fst l) -> (forall k v, In (k, v) l -> fits_key (fd_kind kf) k) -> (forall k v, In (k, v) l -> fits C p false vf v) -> fits C p true f (VMap l)
| fits_list f l : fd_repeated f = true -> (forall e, ~ map_entry p f e) -> (forall v, In v l -> fits C p false f v) -> fits C p true f (VList l)
| fits_whole f v : fd_repeated f = false -> fits C p false f v -> fits C p true f v
| fits_one f v : fits_scalar C (fd_kind f) v -> fits C p false f v
| fits_time f t : fd_kind f = FMsg (tx "google.protobuf.Timestamp") -> cv_time C (t / 10^9) (Z.to_N (t mod 10^9)) = Some t -> fits C p false f (VTimestamp t)
| fits_msg f n d fs : fd_kind f = FMsg n -> ordinary n -> lookup p n = Some d -> complete d fs ->
    (forall g v, In g (md_fields d) -> tget (fd_name g) fs = Some v -> fits C p true g v) -> fits C p false f (VStruct n fs).

(** what [prost_reflect] and protobuf guarantee of a pool *)
Record good (p : schema) : Prop := {
  g_closed : closed p;
  g_names : forall d, In d p -> NoDup (map fd_name (md_fields d));
  g_time : forall d, In d p -> md_name d = tx "google.protobuf.Timestamp" -> md_fields d = [f_of "seconds" FInt64; f_of "nanos" FInt32] }.

Lemma as_i32_id z : (-(2^31) <= z < 2^31)%Z -> as_i32 z = z.
Proof. intros H. change (2^31)%Z with 2147483648%Z in H. unfold as_i32. rewrite Z.mod_small; lia. Qed.
Lemma as_u32_id n : (n < 2^32)%N -> as_u32 n = n.
Proof. intros H. apply N.mod_small. exact H. Qed.

Lemma scalar_round C k v : fits_scalar C k v ->
  (forall n, k <> FMsg n) /\ exists w, scalar_to_proto C k v = Some w /\ scalar_to_cel C w = Some v.
Proof.
  intros H. destruct H as [b|k z Hk Hz|k z Hk|k n Hk Hn|k n Hk|b c H1 H2|b|s|s|l z Hz Hl].
  - split; [easy|]. cbn. eauto.
  - cbn in Hk. destruct Hk as [<-|[<-|[<-|[]]]]; (split; [easy|]); cbn; rewrite as_i32_id by exact Hz; cbn; eauto.
  - cbn in Hk. destruct Hk as [<-|[<-|[<-|[]]]]; (split; [easy|]); cbn; eauto.
  - cbn in Hk. destruct Hk as [<-|[<-|[]]]; (split; [easy|]); cbn; rewrite as_u32_id by exact Hn; cbn; eauto.
  - cbn in Hk. destruct Hk as [<-|[<-|[]]]; (split; [easy|]); cbn; eauto.
  - split; [easy|]. cbn. rewrite H1. cbn. eexists. split; [reflexivity|]. cbn. now rewrite H2.
  - split; [easy|]. cbn. eauto.
  - split; [easy|]. cbn. eauto.
  - split; [easy|]. cbn. eauto.
  - split; [easy|]. exists (PEnum z). split; [|reflexivity]. unfold scalar_to_proto.
    replace (Z.leb (-2147483648) z) with true by (symmetry; apply Z.leb_le; lia). replace (Z.leb z 2147483647) with true by (symmetry; apply Z.leb_le; lia).
    replace (existsb (Z.eqb z) l) with true; [reflexivity|]. symmetry. apply existsb_exists. exists z. split; [exact Hl|apply Z.eqb_refl].
Qed.
Lemma key_round k x : fits_key k x -> exists y, key_to_proto x k = Some y /\ key_to_cel y = x.
Proof.
  intros [b|j z Hk Hz|j z Hk|j n Hk Hn|j n Hk|s]; cbn in *; eauto.
  - destruct Hk as [<-|[<-|[<-|[]]]]; rewrite as_i32_id by exact Hz; eauto.
  - destruct Hk as [<-|[<-|[<-|[]]]]; eauto.
  - destruct Hk as [<-|[<-|[]]]; rewrite as_u32_id by exact Hn; eauto.
  - destruct Hk as [<-|[<-|[]]]; eauto.
Qed.
Lemma pkey_eqb_eq a b : pkey_eqb a b = true <-> a = b.
Proof.
  destruct a, b; cbn; try (split; discriminate).
  - rewrite Bool.eqb_true_iff. split; congruence.
  - rewrite Z.eqb_eq. split; congruence.
  - rewrite Z.eqb_eq. split; congruence.
  - rewrite N.eqb_eq. split; congruence.
  - rewrite N.eqb_eq. split; congruence.
  - rewrite text_eqb_eq. split; congruence.
Qed.
Lemma same_refl_opt o : orel same o o.
Proof. destruct o; constructor. constructor. Qed.

Lemma field_by_name_In d g : NoDup (map fd_name (md_fields d)) -> In g (md_fields d) -> field_by_name d (fd_name g) = Some g.
Proof.
  unfold field_by_name. induction (md_fields d) as [|f l IH]; cbn; intros Hn Hg; [easy|]. inversion Hn as [|? ? Hx Hl]; subst.
  destruct (text_eqb (fd_name f) (fd_name g)) eqn:He.
  - apply text_eqb_eq in He. destruct Hg as [->|Hg]; [easy|]. exfalso. apply Hx. rewrite He. now apply in_map.
  - destruct Hg as [->|Hg]; [rewrite text_eqb_refl in He; discriminate|]. now apply IH.
Qed.
Lemma is_map_spec p f e : map_entry p f e -> is_map p f = true /\ fd_repeated f = true /\ exists n, fd_kind f = FMsg n /\ lookup p n = Some e.
Proof. intros (n & Hr & Hk & Hl & He). unfold is_map. rewrite Hr, Hk, Hl, He. eauto. Qed.
Lemma not_map_spec p f : (forall e, ~ map_entry p f e) -> is_map p f = false.
Proof.
  intros H. unfold is_map. destruct (fd_repeated f) eqn:Hr; [cbn|easy]. destruct (fd_kind f) eqn:Hk; try easy.
  destruct (lookup p name) as [e|] eqn:Hl; [|easy]. destruct (md_entry e) eqn:He; [|easy]. exfalso. apply (H e). exists name. auto.
Qed.

(** maps *)
Lemma build_map_fresh ps : forall acc, NoDup (map fst (acc ++ ps)) ->
  build_map (map (fun kv => (Some (fst kv), Some (snd kv))) ps) acc = Some (acc ++ ps).
Proof.
  induction ps as [|[k v] ps IH]; intros acc Hn; cbn; [now rewrite app_nil_r|].
  rewrite (aset_fresh pkey_eqb).
  - rewrite IH; rewrite <- app_assoc; [easy|exact Hn].
  - apply (aget_None pkey_eqb pkey_eqb_eq). rewrite map_app in Hn. cbn in Hn. apply NoDup_remove_2 in Hn. intros H. apply Hn, in_or_app. now left.
Qed.
Lemma read_map_fresh ps : forall acc, NoDup (map fst (acc ++ ps)) ->
  read_map (map (fun kv => (fst kv, Some (snd kv))) ps) acc = Some (acc ++ ps).
Proof.
  induction ps as [|[k v] ps IH]; intros acc Hn; cbn; [now rewrite app_nil_r|].
  rewrite (aset_fresh mkey_eqb).
  - rewrite IH; rewrite <- app_assoc; [easy|exact Hn].
  - apply (aget_None mkey_eqb mkey_eqb_eq). rewrite map_app in Hn. cbn in Hn. apply NoDup_remove_2 in Hn. intros H. apply Hn, in_or_app. now left.
Qed.

(** round trip of one value *)
Definition rt (C : cenv) (p : schema) (w : bool) (f : fdesc) (v : value) : Prop :=
  exists x y, to_proto C p w f v = Some x /\ to_cel C p x = Some y /\ same v y.

Lemma rt_map C p f e kf vf l : map_entry p f e -> field_by_name e (tx "key") = Some kf -> field_by_name e (tx "value") = Some vf ->
  NoDup (map fst l) -> (forall k v, In (k, v) l -> fits_key (fd_kind kf) k) -> (forall k v, In (k, v) l -> rt C p false vf v) -> rt C p true f (VMap l).
Proof.
  intros Hm Hkf Hvf Hn Hk Hv. destruct (is_map_spec _ _ _ Hm) as (Him & Hr & n & Hkd & Hl).
  assert (H : exists ps : list (pkey * pval), exists qs : list (mkey * value),
    map (fun kv => (key_to_proto (fst kv) (fd_kind kf), to_proto C p false vf (snd kv))) l = map (fun kv => (Some (fst kv), Some (snd kv))) ps /\
    map (fun kv => (key_to_cel (fst kv), to_cel C p (snd kv))) ps = map (fun kv => (fst kv, Some (snd kv))) qs /\
    map (fun kv => key_to_cel (fst kv)) ps = map fst l /\ Forall2 (fun a b => fst a = fst b /\ same (snd a) (snd b)) l qs).
  { clear Hn. induction l as [|[k v] l IH]; [exists [], []; repeat split; constructor|].
    destruct IH as (ps & qs & H1 & H2 & H3 & H4); [intros; eapply Hk; right; eassumption|intros; eapply Hv; right; eassumption|].
    destruct (key_round _ _ (Hk k v (or_introl eq_refl))) as (y & Hy1 & Hy2).
    destruct (Hv k v (or_introl eq_refl)) as (x & z & Hx & Hz & Hs).
    exists ((y, x) :: ps), ((k, z) :: qs). cbn. rewrite Hy1, Hx, H1, Hy2, Hz, H2, H3. repeat split. constructor; [easy|exact H4]. }
  destruct H as (ps & qs & H1 & H2 & H3 & H4).
  assert (N1 : NoDup (map fst ps)).
  { rewrite <- H3 in Hn. clear - Hn. induction ps as [|[k v] ps IH]; cbn in *; [constructor|]. inversion Hn as [|? ? Hx Hl]; subst. constructor; [|auto].
    intros Hi. apply Hx. apply in_map_iff in Hi as ([k' v'] & He & Hi). cbn in He. subst. apply in_map_iff. exists (k, v'). easy. }
  assert (Hq : map fst qs = map fst l) by (clear - H4; induction H4 as [|a b l m [He _] _ IH]; cbn; congruence).
  exists (PMap ps), (VMap qs). split; [|split].
  - cbn [to_proto]. rewrite Him. cbn [andb]. rewrite Hkd, Hl, Hkf, Hvf, H1. now rewrite (build_map_fresh ps []).
  - cbn [to_cel]. rewrite H2. now rewrite (read_map_fresh qs []) by (cbn [app]; rewrite Hq; exact Hn).
  - constructor. intros k. clear - H4. induction H4 as [|[a v] [b w] l m [He Hs] _ IH]; cbn; [constructor|]. cbn in He, Hs. subst b.
    destruct (mkey_eqb k a); [now constructor|exact IH].
Qed.

Lemma rt_list C p f l : fd_repeated f = true -> is_map p f = false -> (forall v, In v l -> rt C p false f v) -> rt C p true f (VList l).
Proof.
  intros Hr Hm Hv.
  assert (H : exists ps qs, all_some (map (fun x => to_proto C p false f x) l) = Some ps /\ all_some (map (to_cel C p) ps) = Some qs /\ Forall2 same l qs).
  { induction l as [|v l IH]; [exists [], []; repeat split; constructor|].
    destruct IH as (ps & qs & H1 & H2 & H3); [intros; apply Hv; now right|]. destruct (Hv v (or_introl eq_refl)) as (x & y & Hx & Hy & Hs).
    exists (x :: ps), (y :: qs). cbn. rewrite Hx, H1, Hy, H2. repeat split. now constructor. }
  destruct H as (ps & qs & H1 & H2 & H3). exists (PList ps), (VList qs). split; [|split].
  - cbn [to_proto]. rewrite Hm, Hr. cbn [andb]. rewrite H1. reflexivity.
  - cbn [to_cel]. rewrite H2. reflexivity.
  - now constructor.
Qed.

(** messages *)
Lemma tget_map {A B} (F : A -> B) k l : tget k (map (fun kv => (fst kv, F (snd kv))) l) = option_map F (tget k l).
Proof. induction l as [|[a v] l IH]; cbn; [easy|]. now destruct (text_eqb k a). Qed.

Definition rival (f g : fdesc) : Prop := exists o, fd_oneof f = Some o /\ fd_oneof g = Some o /\ fd_name f <> fd_name g.
Lemma text_eqb_neq a b : text_eqb a b = false <-> a <> b.
Proof. rewrite <- text_eqb_eq. destruct (text_eqb a b); split; congruence. Qed.
Lemma set_field_same d f v m : tget (fd_name f) (set_field d f v m) = Some v.
Proof. unfold set_field. apply (aget_aset_same text_eqb text_eqb_eq). Qed.
Lemma set_field_other d f v m k : k <> fd_name f ->
  ((exists g, In g (md_fields d) /\ rival f g /\ fd_name g = k) -> tget k (set_field d f v m) = None) /\
  ((forall g, In g (md_fields d) -> rival f g -> fd_name g <> k) -> tget k (set_field d f v m) = tget k m).
Proof.
  intros Hk. unfold set_field. rewrite (aget_aset_other text_eqb text_eqb_eq) by exact Hk.
  set (other g := match fd_oneof f, fd_oneof g with Some a, Some b => (N.eqb a b && negb (text_eqb (fd_name f) (fd_name g)))%bool | _, _ => false end).
  assert (Ho : forall g, other g = true <-> rival f g).
  { intros g. unfold other, rival. destruct (fd_oneof f) as [a|]; [|split; [discriminate|now intros (o & H & _)]].
    destruct (fd_oneof g) as [b|]; [|split; [discriminate|now intros (o & _ & H & _)]].
    rewrite andb_true_iff, N.eqb_eq, negb_true_iff, text_eqb_neq. split; [intros [-> H]; eauto|intros (o & [= ->] & [= ->] & H); auto]. }
  assert (Hg : forall l (m : list (text * pval)), (existsb (fun g => other g && text_eqb (fd_name g) k)%bool l = true -> tget k (fold_left (fun m g => if other g then adel text_eqb (fd_name g) m else m) l m) = None) /\
                           (existsb (fun g => other g && text_eqb (fd_name g) k)%bool l = false -> tget k (fold_left (fun m g => if other g then adel text_eqb (fd_name g) m else m) l m) = tget k m)).
  { assert (Hz : forall l (m : list (text * pval)), tget k m = None -> tget k (fold_left (fun m g => if other g then adel text_eqb (fd_name g) m else m) l m) = None).
    { induction l as [|g l IH]; intros m0 H0; cbn; [exact H0|]. apply IH. destruct (other g); [|exact H0].
      destruct (text_eq_dec k (fd_name g)) as [->|Hne]; [apply (aget_adel_same text_eqb)|now rewrite (aget_adel_other text_eqb text_eqb_eq)]. }
    induction l as [|g l IH]; intros m0; cbn; [split; [discriminate|easy]|].
    destruct (other g) eqn:Hog; cbn; [|apply IH]. destruct (text_eqb (fd_name g) k) eqn:He; cbn.
    - split; [|discriminate]. intros _. apply Hz. apply text_eqb_eq in He. subst k. apply (aget_adel_same text_eqb).
    - apply text_eqb_neq in He. destruct (IH (adel text_eqb (fd_name g) m0)) as [I1 I2]. split; [exact I1|]. intros H. rewrite (I2 H). apply (aget_adel_other text_eqb text_eqb_eq). congruence. }
  destruct (Hg (md_fields d) m) as [G1 G2]. split.
  - intros (g & Hin & Hr & He). apply G1. apply existsb_exists. exists g. split; [exact Hin|]. apply andb_true_iff. split; [now apply Ho|now apply text_eqb_eq].
  - intros H. apply G2. destruct (existsb _ _) eqn:Hx; [|easy]. apply existsb_exists in Hx as (g & Hin & Hb). apply andb_true_iff in Hb as [Hb He].
    apply Ho in Hb. apply text_eqb_eq in He. now destruct (H g Hin Hb).
Qed.

Lemma build_get d (fs : list (text * (fdesc -> option pval))) :
  (forall g h, In g (md_fields d) -> In h (md_fields d) -> rival g h -> tget (fd_name g) fs <> None -> tget (fd_name h) fs = None) ->
  forall todo m, incl todo (md_fields d) -> NoDup (map fd_name todo) ->
  (forall k, tget k m <> None -> tget k fs <> None) ->
  (forall g c, In g todo -> tget (fd_name g) fs = Some c -> c g <> None) ->
  exists m', build_fields d todo fs m = Some m' /\
    (forall g, In g todo -> tget (fd_name g) m' = match tget (fd_name g) fs with Some c => c g | None => tget (fd_name g) m end) /\
    (forall k, ~ In k (map fd_name todo) -> tget k m' = tget k m).
Proof.
  intros Hone. induction todo as [|f todo IH]; intros m Hin Hn Hm Hc; cbn [build_fields]; [exists m; easy|].
  cbn in Hn. inversion Hn as [|? ? Hx Hn']; subst.
  assert (Hin' : incl todo (md_fields d)) by (intros g Hg; apply Hin; now right).
  assert (Hc' : forall g c, In g todo -> tget (fd_name g) fs = Some c -> c g <> None) by (intros g c Hg; apply Hc; now right).
  destruct (tget (fd_name f) fs) as [c|] eqn:Hf.
  - destruct (c f) as [v|] eqn:Hv; [|now destruct (Hc f c (or_introl eq_refl) Hf)].
    assert (Hset : forall k, k <> fd_name f -> tget k (set_field d f v m) = tget k m).
    { intros k Hk. destruct (set_field_other d f v m k Hk) as [_ S2].
      destruct (tget k m) eqn:Hkm.
      - apply S2. intros g Hg Hr <-. assert (Hs : tget (fd_name g) fs <> None) by (apply Hm; congruence).
        apply Hs. apply (Hone f g); [apply Hin; now left|exact Hg|exact Hr|congruence].
      - destruct (existsb (fun g => text_eqb (fd_name g) k && match fd_oneof f, fd_oneof g with Some a, Some b => N.eqb a b | _, _ => false end)%bool (md_fields d)) eqn:He.
        + destruct (set_field_other d f v m k Hk) as [S1 _]. apply S1. apply existsb_exists in He as (g & Hg & Hb). apply andb_true_iff in Hb as [H1 H2]. apply text_eqb_eq in H1.
          exists g. split; [exact Hg|]. split; [|exact H1]. unfold rival. destruct (fd_oneof f) as [a|], (fd_oneof g) as [b|]; try discriminate. apply N.eqb_eq in H2. subst b. exists a. rewrite H1. auto.
        + apply S2. intros g Hg (o & Ho1 & Ho2 & _) Hgk. assert (Ht : existsb (fun g => text_eqb (fd_name g) k && match fd_oneof f, fd_oneof g with Some a, Some b => N.eqb a b | _, _ => false end)%bool (md_fields d) = true); [|congruence].
          apply existsb_exists. exists g. split; [exact Hg|]. rewrite Ho1, Ho2, N.eqb_refl, Hgk, text_eqb_refl. easy. }
    destruct (IH (set_field d f v m) Hin' Hn') as (m' & H1 & H2 & H3).
    + intros k Hk. destruct (text_eq_dec k (fd_name f)) as [->|Hne]; [congruence|]. apply Hm. now rewrite <- (Hset k Hne).
    + exact Hc'.
    + exists m'. split; [exact H1|]. split.
      * intros g [<-|Hg].
        -- rewrite Hf, Hv. rewrite H3 by exact Hx. apply set_field_same.
        -- rewrite (H2 g Hg). destruct (tget (fd_name g) fs); [easy|]. apply Hset. intros He. apply Hx. rewrite <- He. now apply in_map.
      * cbn. intros k Hk. rewrite H3 by tauto. apply Hset. intros ->. apply Hk. now left.
  - destruct (IH m Hin' Hn' Hm Hc') as (m' & H1 & H2 & H3). exists m'. split; [exact H1|]. split.
    + intros g [<-|Hg]; [rewrite Hf; now apply H3|now apply H2].
    + cbn. intros k Hk. apply H3. tauto.
Qed.

Lemma presence_spec f : has_presence f -> supports_presence f = true.
Proof.
  intros [Hr H]. unfold supports_presence. rewrite Hr. cbn. destruct H as [->|[H|[n ->]]]; [easy|destruct (fd_oneof f); [|easy]; now rewrite orb_true_r|now rewrite orb_true_r].
Qed.
Definition join_opt (o : option (option value)) : option value := match o with Some r => r | None => None end.
Lemma read_get C p cs : forall todo, NoDup (map fd_name todo) ->
  (forall g, In g todo -> tget (fd_name g) cs = None -> supports_presence g = true) ->
  (forall g, In g todo -> tget (fd_name g) cs <> Some None) ->
  exists L, read_fields C p todo cs = Some L /\ (forall g, In g todo -> tget (fd_name g) L = join_opt (tget (fd_name g) cs)) /\
    (forall k, ~ In k (map fd_name todo) -> tget k L = None).
Proof.
  induction todo as [|f todo IH]; intros Hn Hp Hs; cbn [read_fields]; [exists []; easy|]. cbn in Hn. inversion Hn as [|? ? Hx Hn']; subst.
  destruct IH as (L & H1 & H2 & H3); [exact Hn'|intros g Hg; apply Hp; now right|intros g Hg; apply Hs; now right|].
  destruct (tget (fd_name f) cs) as [[v|]|] eqn:Hf.
  - rewrite H1. eexists. split; [reflexivity|]. split.
    + intros g [<-|Hg]; cbn; [now rewrite text_eqb_refl, Hf|].
      destruct (text_eqb (fd_name g) (fd_name f)) eqn:He; [|now apply H2]. apply text_eqb_eq in He. exfalso. apply Hx. rewrite <- He. now apply in_map.
    + cbn. intros k Hk. destruct (text_eqb k (fd_name f)) eqn:He; [apply text_eqb_eq in He; subst; tauto|]. apply H3. tauto.
  - now destruct (Hs f (or_introl eq_refl)).
  - rewrite (Hp f (or_introl eq_refl) Hf). exists L. split; [exact H1|]. split.
    + intros g [<-|Hg]; [rewrite Hf; cbn; now apply H3|now apply H2].
    + cbn. intros k Hk. apply H3. tauto.
Qed.

Lemma rt_message C p d fs : NoDup (map fd_name (md_fields d)) -> complete d fs ->
  (forall g v, In g (md_fields d) -> tget (fd_name g) fs = Some v -> rt C p true g v) ->
  exists m L, build_fields d (md_fields d) (map (fun kv => (fst kv, fun g => to_proto C p true g (snd kv))) fs) [] = Some m /\
    read_fields C p (md_fields d) (map (fun kv => (fst kv, to_cel C p (snd kv))) m) = Some L /\
    forall k, orel same (tget k fs) (tget k L).
Proof.
  intros Hn (Hd & Hp & Ho) Hf.
  set (fc := map (fun kv => (fst kv, fun g => to_proto C p true g (snd kv))) fs).
  assert (Hfc : forall k, tget k fc = option_map (fun v g => to_proto C p true g v) (tget k fs)) by (intros k; apply (tget_map (fun v g => to_proto C p true g v))).
  destruct (build_get d fc) with (todo := md_fields d) (m := @nil (text * pval)) as (m & H1 & H2 & H3).
  - intros g h Hg Hh (o & Ho1 & Ho2 & Hne) Hs. rewrite Hfc in *. destruct (tget (fd_name h) fs) eqn:Eh; [|easy]. exfalso. apply Hne.
    apply (Ho g h o Hg Hh Ho1 Ho2); [|congruence]. destruct (tget (fd_name g) fs); [congruence|easy].
  - easy.
  - exact Hn.
  - easy.
  - intros g c Hg Hc. rewrite Hfc in Hc. destruct (tget (fd_name g) fs) as [v|] eqn:Ev; [|discriminate]. injection Hc as <-. cbn.
    destruct (Hf g v Hg Ev) as (x & y & Hx & _). congruence.
  - exists m. set (cs := map (fun kv => (fst kv, to_cel C p (snd kv))) m).
    assert (Hcs : forall k, tget k cs = option_map (to_cel C p) (tget k m)) by (intros k; apply tget_map).
    assert (Hval : forall g, In g (md_fields d) -> match tget (fd_name g) fs with
              | Some v => exists y, tget (fd_name g) cs = Some (Some y) /\ same v y
              | None => tget (fd_name g) cs = None end).
    { intros g Hg. rewrite Hcs, (H2 g Hg), Hfc. destruct (tget (fd_name g) fs) as [v|] eqn:Ev; [|easy]. cbn.
      destruct (Hf g v Hg Ev) as (x & y & Hx & Hy & Hs). rewrite Hx. cbn. rewrite Hy. eauto. }
    destruct (read_get C p cs (md_fields d) Hn) as (L & R1 & R2 & R3).
    + intros g Hg Hc. apply presence_spec, Hp; [exact Hg|]. specialize (Hval g Hg). destruct (tget (fd_name g) fs); [|easy]. destruct Hval as (y & Hy & _). congruence.
    + intros g Hg Hc. specialize (Hval g Hg). destruct (tget (fd_name g) fs); [destruct Hval as (y & Hy & _)|]; congruence.
    + exists L. split; [exact H1|]. split; [exact R1|]. intros k. destruct (in_dec text_eq_dec k (map fd_name (md_fields d))) as [Hk|Hk].
      * apply in_map_iff in Hk as (g & <- & Hg). rewrite (R2 g Hg). specialize (Hval g Hg). destruct (tget (fd_name g) fs) as [v|].
        -- destruct Hval as (y & -> & Hs). now constructor.
        -- rewrite Hval. constructor.
      * rewrite (R3 k Hk). destruct (tget k fs) as [v|] eqn:Ev; [|constructor]. exfalso. apply Hk.
        apply (aget_In text_eqb text_eqb_eq) in Ev. destruct (Hd k v Ev) as (g & Hg & <-). now apply in_map.
Qed.

Lemma time_round C p f t : good p -> fd_kind f = FMsg t_timestamp -> (exists d, lookup p t_timestamp = Some d) ->
  cv_time C (t / 10^9) (Z.to_N (t mod 10^9)) = Some t -> rt C p false f (VTimestamp t).
Proof.
  intros G Hk [d Hl] Ht. destruct (lookup_In _ _ _ Hl) as [Hd Hnm]. pose proof (g_time p G d Hd Hnm) as Hf.
  change (10^9)%Z with 1000000000%Z in Ht.
  assert (Hb : i32_as_u32 (t mod 1000000000) = Z.to_N (t mod 1000000000)).
  { unfold i32_as_u32. rewrite (Z.mod_small (t mod 1000000000) 4294967296); [reflexivity|]. pose proof (Z.mod_pos_bound t 1000000000). lia. }
  assert (H1 : forall a b, timestamp_to_proto d t = Some (PMsg t_timestamp [(tx "seconds", PI64 a); (tx "nanos", PI32 b)]) ->
    i32_as_u32 b = Z.to_N (t mod 1000000000) -> a = (t / 1000000000)%Z -> rt C p false f (VTimestamp t)).
  { intros a b H1 H2 H3. exists (PMsg t_timestamp [(tx "seconds", PI64 a); (tx "nanos", PI32 b)]), (VTimestamp t). split; [|split; [|constructor]].
    - cbn [to_proto andb]. rewrite Hk, Hl, text_eqb_refl. exact H1.
    - cbn [to_cel]. rewrite Hl, text_eqb_refl. unfold timestamp_to_cel, field_by_name. rewrite Hf.
      change (option_map VTimestamp (cv_time C a (i32_as_u32 b)) = Some (VTimestamp t)). rewrite H2, H3, Ht. reflexivity. }
  apply (H1 (t / 1000000000)%Z (t mod 1000000000)%Z); [|exact Hb|reflexivity].
  unfold timestamp_to_proto, field_by_name, set_field. rewrite Hf, Hnm. generalize (t / 1000000000)%Z, (t mod 1000000000)%Z. intros a b. reflexivity.
Qed.

Lemma to_proto_one C p f v : to_proto C p false f v = match fd_kind f with
  | FMsg n => match lookup p n with
              | Some d => match v with
                          | VTimestamp t => if text_eqb n t_timestamp then timestamp_to_proto d t else None
                          | VStruct _ fs => option_map (PMsg n) (build_fields d (md_fields d) (map (fun kv => (fst kv, fun g => to_proto C p true g (snd kv))) fs) [])
                          | _ => None
                          end
              | None => None
              end
  | k => scalar_to_proto C k v
  end.
Proof. now destruct v. Qed.
Lemma to_proto_singular C p f v : fd_repeated f = false -> to_proto C p true f v = to_proto C p false f v.
Proof. intros Hr. destruct v; cbn [to_proto]; unfold is_map; rewrite Hr; reflexivity. Qed.
Lemma scalar_to_cel_to C p w y : scalar_to_cel C w = Some y -> to_cel C p w = Some y.
Proof. now destruct w. Qed.

Lemma round_trip C p : good p -> forall w f v, fits C p w f v -> In f (flat_map md_fields p) -> rt C p w f v.
Proof.
  intros G w f v H. induction H as [f e kf vf l Hm Hkf Hkn Hvf Hvn Hnd Hk Hv IH|f l Hr Hm Hv IH|f v Hr Hf IH|f v Hs|f t Hk Ht|f n d fs Hk Hn Hl Hc Hf IH]; intros Hin.
  - destruct (is_map_spec _ _ _ Hm) as (_ & _ & n & _ & Hl). destruct (lookup_In _ _ _ Hl) as [He _].
    pose proof (g_names p G e He) as Hnn. apply (rt_map C p f e kf vf); auto.
    + rewrite <- Hkn. now apply field_by_name_In.
    + rewrite <- Hvn. now apply field_by_name_In.
    + intros k v Hi. apply (IH k v Hi). apply in_flat_map. eauto.
  - apply rt_list; [exact Hr|now apply not_map_spec|]. intros v Hi. now apply IH.
  - destruct (IH Hin) as (x & y & Hx & Hy). exists x, y. rewrite to_proto_singular by exact Hr. easy.
  - destruct (scalar_round C _ _ Hs) as (Hne & w & H1 & H2). exists w, v. rewrite to_proto_one. split; [|split; [now apply scalar_to_cel_to|constructor]].
    destruct (fd_kind f); try exact H1. now destruct (Hne name).
  - apply in_flat_map in Hin as (d & Hd & Hfd). apply time_round; auto. exact (g_closed p G d f _ Hd Hfd Hk).
  - destruct (lookup_In _ _ _ Hl) as [Hd Hnm]. destruct (rt_message C p d fs (g_names p G d Hd) Hc) as (m & L & H1 & H2 & H3).
    { intros g v Hg Hv. apply (IH g v Hg Hv). apply in_flat_map. eauto. }
    exists (PMsg n m), (VStruct n L). rewrite to_proto_one, Hk, Hl, H1. split; [reflexivity|]. split; [|now constructor].
    cbn [to_cel]. rewrite Hl. destruct Hn as (N1 & N2 & N3 & N4).
    rewrite (proj2 (text_eqb_neq n t_timestamp) N1), (proj2 (text_eqb_neq n t_struct) N2), (proj2 (text_eqb_neq n t_value) N3), (proj2 (text_eqb_neq n t_list) N4), H2. reflexivity.
Qed.

(** C65: whatever fits a field of the schema is accepted and comes back as the same value *)
Theorem C65_values_survive C p f v : good p -> In f (flat_map md_fields p) -> fits C p true f v ->
  exists w v', to_proto C p true f v = Some w /\ to_cel C p w = Some v' /\ same v v'.
Proof. intros G Hin Hf. exact (round_trip C p G true f v Hf Hin). Qed.

(** C65: whole requests and replies, of any message type *)
Theorem C65_messages_survive C p n d fs : good p -> lookup p n = Some d -> complete d fs ->
  (forall g v, In g (md_fields d) -> tget (fd_name g) fs = Some v -> fits C p true g v) ->
  exists m v', cel_to_message C p n (VStruct n fs) = Some m /\ message_to_cel C p n m = Some v' /\ same (VStruct n fs) v'.
Proof.
  intros G Hl Hc Hf. destruct (lookup_In _ _ _ Hl) as [Hd Hnm].
  destruct (rt_message C p d fs (g_names p G d Hd) Hc) as (m & L & H1 & H2 & H3).
  { intros g v Hg Hv. apply round_trip; auto. apply in_flat_map. eauto. }
  exists m, (VStruct n L). unfold cel_to_message, message_to_cel. rewrite Hl, H1, H2. repeat split. now constructor.
Qed.

Definition Cd : cenv := mkCenv (fun b => Some b) (fun b => b) (fun s n => Some (s * 1000000000 + Z.of_N n)%Z).
Lemma demo_good : good demo.
Proof.
  constructor; [exact demo_closed| |].
  - intros d Hd. cbn in Hd. repeat destruct Hd as [<-|Hd]; try easy; cbn; repeat (constructor; [cbn; repeat (intros [H|H]; [discriminate H|revert H]); easy|]); constructor.
  - intros d Hd Hn. cbn in Hd. repeat destruct Hd as [<-|Hd]; try easy; discriminate Hn.
Qed.
Definition leaf : list (text * value) :=
  [(tx "id", VInt 7); (tx "big", VInt (-5000000000)); (tx "count", VUInt 3); (tx "kids", VList []); (tx "tags", VMap []); (tx "level", VInt 1)].
Definition tree : list (text * value) :=
  [(tx "b", VString (tx "x")); (tx "id", VInt 7); (tx "big", VInt (-5000000000)); (tx "count", VUInt 3); (tx "level", VInt 0);
   (tx "kids", VList [VStruct (tx "T") leaf]); (tx "tags", VMap [(KInt 4, VStruct (tx "U") [(tx "name", VString (tx "u"))]); (KInt (-4), VStruct (tx "U") [(tx "name", VString [])])]);
   (tx "when", VTimestamp (-1))].
Ltac declared := intros k v Hkv; cbn in Hkv; repeat destruct Hkv as [Hkv|Hkv]; try easy; injection Hkv as <- <-; match goal with |- exists g, In g ?l /\ fd_name g = ?k => let r := eval vm_compute in (find (fun g => text_eqb (fd_name g) k) l) in match r with Some ?g => exists g end end; (split; [vm_compute; repeat (first [left; reflexivity|right])|reflexivity]).
Ltac present := intros g Hg Hu; cbn in Hg; repeat destruct Hg as [<-|Hg]; try easy; try discriminate Hu; (split; [reflexivity|]); first [left; reflexivity | right; left; discriminate | right; right; eexists; reflexivity].
Ltac alone := intros g h o Hg Hh Ho1 Ho2 Hs1 Hs2; cbn in Hg, Hh; repeat destruct Hg as [<-|Hg]; try easy; try discriminate Ho1; repeat destruct Hh as [<-|Hh]; try easy; try discriminate Ho2; exfalso; (now apply Hs1) || (now apply Hs2).
Ltac scalar := apply fits_whole; [reflexivity|apply fits_one; cbn; first [now constructor | apply fs_i32; [cbn; tauto|easy] | apply fs_i64; cbn; tauto | apply fs_u32; [cbn; tauto|easy] | apply fs_enum; [easy|cbn; tauto]]].
Example C65_ex : good demo /\ exists d, lookup demo (tx "T") = Some d /\ complete d tree /\
  (forall g v, In g (md_fields d) -> tget (fd_name g) tree = Some v -> fits Cd demo true g v).
Proof.
  split; [exact demo_good|]. eexists. split; [reflexivity|]. split; [split; [declared|split; [present|alone]]|].
  assert (Hnm : forall e, ~ map_entry demo (r_of "kids" (FMsg (tx "T"))) e) by (intros e (n & _ & [= <-] & Hl & He); injection Hl as <-; discriminate He).
  intros g v Hg Hv. cbn in Hg. repeat destruct Hg as [<-|Hg]; try easy; vm_compute in Hv; try discriminate Hv; injection Hv as <-; try scalar.
  - apply fits_list; [reflexivity|exact Hnm|]. intros v [<-|[]]. eapply fits_msg; [reflexivity|now repeat split|reflexivity|split; [declared|split; [present|alone]]|].
    intros g v Hg Hv. cbn in Hg. repeat destruct Hg as [<-|Hg]; try easy; vm_compute in Hv; try discriminate Hv; injection Hv as <-; try scalar.
    + now apply fits_list.
    + eapply (fits_map _ _ _ _ (f_of "key" FInt32) (f_of "value" (FMsg (tx "U")))); [exists (tx "T.Tags"); repeat split|now left|reflexivity|right; now left|reflexivity|constructor|easy|easy].
  - eapply (fits_map _ _ _ _ (f_of "key" FInt32) (f_of "value" (FMsg (tx "U")))); [exists (tx "T.Tags"); repeat split|now left|reflexivity|right; now left|reflexivity| | |].
    + repeat (constructor; [cbn; now intros [H|[]]|]). repeat constructor. easy.
    + intros k v [H|[H|[]]]; injection H as <- <-; apply fk_i32; [cbn; tauto|easy|cbn; tauto|easy].
    + assert (Hu : forall s, fits Cd demo false (f_of "value" (FMsg (tx "U"))) (VStruct (tx "U") [(tx "name", VString s)])).
      { intros s. eapply fits_msg; [reflexivity|now repeat split|reflexivity|split; [declared|split; [present|alone]]|].
        intros g v [<-|[]] Hv. injection Hv as <-. scalar. }
      intros k v [H|[H|[]]]; injection H as <- <-; apply Hu.
  - apply fits_whole; [reflexivity|]. now apply fits_time.
Qed.

(** Values the round trip changes, outside [fits]: a number rounded to 32-bit float
    precision, a wrapped JSON-like value, and a struct leaving out a field without presence. *)
Example C65_unwrapped : exists w, to_proto Cd demo true (f_of "any" (FMsg (tx "google.protobuf.Value"))) (VStruct (tx "google.protobuf.Value") [(tx "string_value", VString (tx "s"))]) = Some w /\
  to_cel Cd demo w = Some (VString (tx "s")).
Proof. eexists. split; reflexivity. Qed.
Example C65_default_added : exists w, to_proto Cd demo true (f_of "t" (FMsg (tx "U"))) (VStruct (tx "U") []) = Some w /\
  to_cel Cd demo w = Some (VStruct (tx "U") [(tx "name", VString [])]).
Proof. eexists. split; reflexivity. Qed.

(** * C66: numbers *)
Definition number (v : value) : option Z := match v with VInt z => Some z | VUInt n => Some (Z.of_N n) | _ => None end.
Definition sent (w : pval) : option Z :=
  match w with PI32 z | PI64 z | PEnum z => Some z | PU32 n | PU64 n => Some (Z.of_N n) | _ => None end.
(** the numbers a kind can carry *)
Inductive carries : fkind -> Z -> Prop :=
| c_i32 k z : In k [FInt32; FSint32; FSfixed32] -> (-(2^31) <= z < 2^31)%Z -> carries k z
| c_i64 k z : In k [FInt64; FSint64; FSfixed64] -> (-(2^63) <= z < 2^63)%Z -> carries k z
| c_u32 k z : In k [FUint32; FFixed32] -> (0 <= z < 2^32)%Z -> carries k z
| c_u64 k z : In k [FUint64; FFixed64] -> (0 <= z < 2^64)%Z -> carries k z
| c_enum l z : (-(2^31) <= z < 2^31)%Z -> In z l -> carries (FEnum l) z.
(** CEL numbers are 64-bit *)
Definition cel_number (v : value) : Prop :=
  match v with VInt z => (-(2^63) <= z < 2^63)%Z | VUInt n => (n < 2^64)%N | _ => True end.

(** C66, proved for numbers in the field's range: they arrive unchanged *)
Theorem C66_numbers_in_range_arrive_partial C p f v z w : number v = Some z -> carries (fd_kind f) z ->
  to_proto C p false f v = Some w -> sent w = Some z.
Proof.
  intros Hv Hc. rewrite to_proto_one. destruct v; try discriminate Hv; injection Hv as <-; inversion Hc as [k y Hk Hy|k y Hk Hy|k y Hk Hy|k y Hk Hy|l y Hy Hl]; subst.
  - destruct Hk as [<-|[<-|[<-|[]]]]; cbn; intros [= <-]; cbn; now rewrite as_i32_id.
  - destruct Hk as [<-|[<-|[<-|[]]]]; cbn; intros [= <-]; easy.
  - destruct Hk as [<-|[<-|[]]]; discriminate.
  - destruct Hk as [<-|[<-|[]]]; discriminate.
  - cbn. destruct (_ && _)%bool; [|discriminate]. now intros [= <-].
  - destruct Hk as [<-|[<-|[<-|[]]]]; discriminate.
  - destruct Hk as [<-|[<-|[<-|[]]]]; discriminate.
  - destruct Hk as [<-|[<-|[]]]; cbn; intros [= <-]; cbn; (rewrite as_u32_id; [easy|]); apply N2Z.inj_lt; exact (proj2 Hy).
  - destruct Hk as [<-|[<-|[]]]; cbn; intros [= <-]; easy.
  - discriminate.
Qed.
(** C66, proved for 64-bit and enum fields: other numbers are an error *)
Theorem C66_wide_fields_and_enums_reject_partial C p f v z w : number v = Some z -> cel_number v ->
  ~ In (fd_kind f) [FInt32; FSint32; FSfixed32; FUint32; FFixed32] ->
  to_proto C p false f v = Some w -> carries (fd_kind f) z /\ sent w = Some z.
Proof.
  intros Hv Hb Hk. rewrite to_proto_one. destruct v; try discriminate Hv; injection Hv as <-; destruct (fd_kind f) eqn:Hf; cbn in Hk; try tauto; cbn; try discriminate;
    try (destruct (lookup p name); discriminate).
  - intros [= <-]. split; [|easy]. apply c_i64; [cbn; tauto|exact Hb].
  - intros [= <-]. split; [|easy]. apply c_i64; [cbn; tauto|exact Hb].
  - intros [= <-]. split; [|easy]. apply c_i64; [cbn; tauto|exact Hb].
  - destruct (_ && _)%bool eqn:H; [|discriminate]. intros [= <-]. split; [|easy]. apply andb_true_iff in H as [H1 H2]. apply andb_true_iff in H1 as [H0 H1]. apply Z.leb_le in H0, H1.
    apply existsb_exists in H2 as (y & Hy & He). apply Z.eqb_eq in He. subst y. apply c_enum; [lia|exact Hy].
  - intros [= <-]. split; [|easy]. apply c_u64; [cbn; tauto|]. cbn in Hb. lia.
  - intros [= <-]. split; [|easy]. apply c_u64; [cbn; tauto|]. cbn in Hb. lia.
Qed.
(** C66 fails for 32-bit fields: every number out of range is accepted and changed *)
Theorem C66_narrow_fields_change_numbers_refuted : exists f v z, number v = Some z /\ cel_number v /\ ~ carries (fd_kind f) z /\
  exists w z', to_proto Cd demo false f v = Some w /\ sent w = Some z' /\ z' <> z.
Proof.
  exists (f_of "id" FInt32), (VInt 4294967297), 4294967297%Z. repeat split; try easy.
  - intros H. inversion H as [k y Hk Hy|k y Hk Hy|k y Hk Hy|k y Hk Hy|]; subst; cbn in Hk; [lia|intuition discriminate..].
  - exists (PI32 1), 1%Z. repeat split; easy.
Qed.
Theorem C66_every_number_out_of_range_is_changed C p f v z : In (fd_kind f) [FInt32; FSint32; FSfixed32] /\ v = VInt z \/ In (fd_kind f) [FUint32; FFixed32] /\ (exists n, v = VUInt n /\ z = Z.of_N n) ->
  ~ carries (fd_kind f) z -> exists w z', to_proto C p false f v = Some w /\ sent w = Some z' /\ carries (fd_kind f) z' /\ z' <> z.
Proof.
  intros H Hn. rewrite to_proto_one. destruct H as [[Hk ->]|(Hk & n & -> & ->)].
  - assert (Hr : (-(2^31) <= as_i32 z < 2^31)%Z) by (unfold as_i32; pose proof (Z.mod_pos_bound (z + 2147483648) 4294967296); lia).
    exists (PI32 (as_i32 z)), (as_i32 z). split; [destruct (fd_kind f); cbn in Hk; intuition discriminate || reflexivity|]. split; [easy|].
    assert (Hc : carries (fd_kind f) (as_i32 z)) by now apply c_i32. split; [exact Hc|]. intros He. now rewrite He in Hc.
  - assert (Hr : (0 <= Z.of_N (as_u32 n) < 2^32)%Z) by (split; [apply N2Z.is_nonneg|]; change (2^32)%Z with (Z.of_N 4294967296); apply N2Z.inj_lt, N.mod_lt; discriminate).
    exists (PU32 (as_u32 n)), (Z.of_N (as_u32 n)). split; [destruct (fd_kind f); cbn in Hk; intuition discriminate || reflexivity|]. split; [easy|].
    assert (Hc : carries (fd_kind f) (Z.of_N (as_u32 n))) by now apply c_u32. split; [exact Hc|]. intros He. now rewrite He in Hc.
Qed.
(** and map keys out of range can fall together, dropping an entry *)
Theorem C66_map_keys_fall_together_refuted : exists f l m, is_map demo f = true /\ NoDup (map fst l) /\ List.length l = 2 /\
  to_proto Cd demo true f (VMap l) = Some (PMap m) /\ List.length m = 1.
Proof.
  exists (r_of "tags" (FMsg (tx "T.Tags"))), [(KInt 1, VStruct (tx "U") []); (KInt 4294967297, VStruct (tx "U") [])]. eexists. split; [reflexivity|].
  split; [constructor; [cbn; intros [H|[]]; discriminate H|constructor; [easy|constructor]]|]. split; [reflexivity|]. split; reflexivity.
Qed.
Example C66_ex : number (VInt 7) = Some 7%Z /\ carries FInt32 7 /\ to_proto Cd demo false (f_of "id" FInt32) (VInt 7) = Some (PI32 7).
Proof. split; [easy|]. split; [|easy]. apply c_i32; [now left|easy]. Qed.

Print Assumptions C65_values_survive.
Print Assumptions C65_messages_survive.
Print Assumptions C66_numbers_in_range_arrive_partial.
Print Assumptions C66_wide_fields_and_enums_reject_partial.
Print Assumptions C66_narrow_fields_change_numbers_refuted.
Print Assumptions C66_every_number_out_of_range_is_changed.
Print Assumptions C66_map_keys_fall_together_refuted.
Print Assumptions C67_reachable_types_are_declared.
