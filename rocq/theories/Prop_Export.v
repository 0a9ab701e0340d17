(** C91, C92, C93: what a store action exports to the host. *)
From Coq Require Import String Ascii List NArith ZArith Bool Lia Arith Permutation.
From Verif Require Import Base Value Wire ValueBytes P_Utf8 P_Wire P_F64.
From Verif Require P_Scope.
Import ListNotations.
Open Scope list_scope.

(** * Specifications *)
(** What a reader of google.protobuf.Value and google.protobuf.Struct gets to see *)
Inductive doc := DNull | DNum (bits : N) | DStr (s : text) | DBool (b : bool) | DMap (m : list (text * doc)) | DList (l : list doc).

(** an entry of a map field: the key, if not empty, and the value *)
Definition entry (e k b : text) : Prop :=
  utf8_valid k = true /\ (fields e = Some [(1%N, WLen k); (2%N, WLen b)] \/ k = [] /\ fields e = Some [(2%N, WLen b)]).
(** [reads s d]: the bytes [s] are a google.protobuf.Value, namely [d] *)
Inductive reads : text -> doc -> Prop :=
| rd_null s : fields s = Some [(1%N, WVar 0)] -> reads s DNull
| rd_num s b : fields s = Some [(2%N, WF64 b)] -> reads s (DNum b)
| rd_str s t : fields s = Some [(3%N, WLen t)] -> utf8_valid t = true -> reads s (DStr t)
| rd_bool s (b : bool) : fields s = Some [(4%N, WVar (if b then 1 else 0))] -> reads s (DBool b)
| rd_map s t es m : fields s = Some [(5%N, WLen t)] -> fields t = Some (map (fun e => (1%N, WLen e)) es) -> NoDup (map fst m) ->
    Forall2 (fun e kd => exists b, entry e (fst kd) b /\ reads b (snd kd)) es m -> reads s (DMap m)
| rd_list s t bs l : fields s = Some [(6%N, WLen t)] -> fields t = Some (map (fun b => (1%N, WLen b)) bs) -> Forall2 reads bs l -> reads s (DList l).
(** ... a google.protobuf.Struct *)
Definition reads_struct (t : text) (m : list (text * doc)) : Prop :=
  exists es, fields t = Some (map (fun e => (1%N, WLen e)) es) /\ NoDup (map fst m) /\
    Forall2 (fun e kd => exists b, entry e (fst kd) b /\ reads b (snd kd)) es m.
(** a map is exported as a Struct, anything else as a Value *)
Definition read_back (v : value) (s : text) (d : doc) : Prop :=
  match v with
  | VMap _ => exists m, d = DMap m /\ reads_struct s m
  | _ => reads s d
  end.

(** [shows v d]: the document has the same content as the CEL value, numbers by their
    mathematical value, maps in any order *)
Inductive shows : value -> doc -> Prop :=
| sh_null : shows VNull DNull
| sh_bool b : shows (VBool b) (DBool b)
| sh_int z b : number b z -> shows (VInt z) (DNum b)
| sh_uint n b : number b (Z.of_N n) -> shows (VUInt n) (DNum b)
| sh_float b : shows (VFloat b) (DNum b)
| sh_string s : shows (VString s) (DStr s)
| sh_bytes s : shows (VBytes s) (DStr s)
| sh_list l m : Forall2 shows l m -> shows (VList l) (DList m)
| sh_map l m m' : Forall2 (fun kv kd => fst kv = KStr (fst kd) /\ shows (snd kv) (snd kd)) l m' -> Permutation m' m -> shows (VMap l) (DMap m).

(** CEL values as they can occur: numbers in range, strings in UTF-8, keys of a map distinct *)
Inductive cel_ok : value -> Prop :=
| ok_null : cel_ok VNull
| ok_bool b : cel_ok (VBool b)
| ok_int z : (- 2 ^ 63 <= z < 2 ^ 63)%Z -> cel_ok (VInt z)
| ok_uint n : (n < 2 ^ 64)%N -> cel_ok (VUInt n)
| ok_float b : (b < 2 ^ 64)%N -> cel_ok (VFloat b)
| ok_string s : utf8_valid s = true -> cel_ok (VString s)
| ok_bytes s : cel_ok (VBytes s)
| ok_list l : Forall cel_ok l -> cel_ok (VList l)
| ok_map l : NoDup (map fst l) -> (forall s, In (KStr s) (map fst l) -> utf8_valid s = true) -> Forall (fun kv => cel_ok (snd kv)) l -> cel_ok (VMap l)
| ok_struct n fs : cel_ok (VStruct n fs)
| ok_time z : cel_ok (VTimestamp z)
| ok_span z : cel_ok (VDuration z).
(** values that a document can show: integers up to 2^53, byte strings that are text *)
Inductive portable : value -> Prop :=
| po_null : portable VNull
| po_bool b : portable (VBool b)
| po_int z : (Z.abs z <= 2 ^ 53)%Z -> portable (VInt z)
| po_uint n : (n <= 2 ^ 53)%N -> portable (VUInt n)
| po_float b : portable (VFloat b)
| po_string s : portable (VString s)
| po_bytes s : utf8_valid s = true -> portable (VBytes s)
| po_list l : Forall portable l -> portable (VList l)
| po_map l : Forall (fun kv => (exists k, fst kv = KStr k) /\ portable (snd kv)) l -> portable (VMap l).
(** values with a part that no document can show *)
Inductive foreign : value -> Prop :=
| fo_struct n fs : foreign (VStruct n fs)
| fo_time z : foreign (VTimestamp z)
| fo_span z : foreign (VDuration z)
| fo_list l v : In v l -> foreign v -> foreign (VList l)
| fo_key l k v : In (k, v) l -> (forall s, k <> KStr s) -> foreign (VMap l)
| fo_map l k v : In (k, v) l -> foreign v -> foreign (VMap l).

(** * Facts *)
Section DocInd.
  Variable P : doc -> Prop.
  Hypothesis HNull : P DNull.
  Hypothesis HNum : forall b, P (DNum b).
  Hypothesis HStr : forall s, P (DStr s).
  Hypothesis HBool : forall b, P (DBool b).
  Hypothesis HMap : forall m, Forall (fun kd => P (snd kd)) m -> P (DMap m).
  Hypothesis HList : forall l, Forall P l -> P (DList l).
  Fixpoint doc_ind' (d : doc) : P d :=
    match d with
    | DNull => HNull | DNum b => HNum b | DStr s => HStr s | DBool b => HBool b
    | DMap m => HMap m ((fix go l : Forall (fun kd => P (snd kd)) l := match l with [] => Forall_nil _ | x :: l' => Forall_cons x (doc_ind' (snd x)) (go l') end) m)
    | DList l => HList l ((fix go l : Forall P l := match l with [] => Forall_nil _ | x :: l' => Forall_cons x (doc_ind' x) (go l') end) l)
    end.
End DocInd.
Section PvInd.
  Variable P : pv -> Prop.
  Hypothesis HNull : P PvNull.
  Hypothesis HNum : forall b, P (PvNum b).
  Hypothesis HStr : forall s, P (PvStr s).
  Hypothesis HBool : forall b, P (PvBool b).
  Hypothesis HMap : forall m, Forall (fun kd => P (snd kd)) m -> P (PvStruct m).
  Hypothesis HList : forall l, Forall P l -> P (PvList l).
  Fixpoint pv_ind' (d : pv) : P d :=
    match d with
    | PvNull => HNull | PvNum b => HNum b | PvStr s => HStr s | PvBool b => HBool b
    | PvStruct m => HMap m ((fix go l : Forall (fun kd => P (snd kd)) l := match l with [] => Forall_nil _ | x :: l' => Forall_cons x (pv_ind' (snd x)) (go l') end) m)
    | PvList l => HList l ((fix go l : Forall P l := match l with [] => Forall_nil _ | x :: l' => Forall_cons x (pv_ind' x) (go l') end) l)
    end.
End PvInd.

(** ** Reading is unambiguous *)
Lemma map_inj {A B} (f : A -> B) : (forall a b, f a = f b -> a = b) -> forall l l', map f l = map f l' -> l = l'.
Proof. intros Hf. induction l as [|a l IH]; intros [|b l'] H; try easy. injection H as H1 H2. f_equal; auto. Qed.
Lemma entry_fun e k b k' b' : entry e k b -> entry e k' b' -> k = k' /\ b = b'.
Proof. intros [_ [H1|[-> H1]]] [_ [H2|[-> H2]]]; rewrite H1 in H2; injection H2; intros; subst; auto; discriminate. Qed.
Lemma entries_fun m : Forall (fun kd => forall s d', reads s (snd kd) -> reads s d' -> snd kd = d') m -> forall es m',
  Forall2 (fun e kd => exists b, entry e (fst kd) b /\ reads b (snd kd)) es m ->
  Forall2 (fun e kd => exists b, entry e (fst kd) b /\ reads b (snd kd)) es m' -> m = m'.
Proof.
  induction 1 as [|[k d] m Hd _ IH]; intros es m' H1 H2; inversion H1; subst; inversion H2; subst; [reflexivity|].
  match goal with H : exists b, entry _ (fst (k, d)) b /\ _ |- _ => destruct H as (b1 & E1 & R1) end.
  match goal with H : exists b, entry _ (fst ?y) b /\ _ |- _ = ?y :: _ => destruct y as [k' d'], H as (b2 & E2 & R2) end. cbn [fst snd] in *.
  destruct (entry_fun _ _ _ _ _ E1 E2) as [-> ->]. f_equal; [f_equal; eauto|eauto].
Qed.
Lemma wlen_inj (n : N) : forall a b : text, (n, WLen a) = (n, WLen b) -> a = b. Proof. now injection 1. Qed.
Lemma reads_fun d : forall s d', reads s d -> reads s d' -> d = d'.
Proof.
  induction d as [|b|s0|b|m IH|l IH] using doc_ind'; intros s d' H1 H2; inversion H1; subst; inversion H2; subst; try congruence.
  - match goal with A : fields ?s = Some [(4%N, WVar (if ?b then _ else _))], B : fields ?s = Some [(4%N, WVar (if ?c then _ else _))] |- _ => rewrite A in B; injection B; destruct b, c; congruence end.
  - match goal with A : fields ?s = Some [_], B : fields ?s = Some [_] |- _ => rewrite A in B; injection B as B; subst end.
    match goal with A : fields ?t = Some (map _ ?x), B : fields ?t = Some (map _ ?y) |- _ => rewrite A in B; injection B as B; apply (map_inj _ (wlen_inj 1)) in B; subst end. f_equal. eapply entries_fun; eauto.
  - match goal with A : fields ?s = Some [_], B : fields ?s = Some [_] |- _ => rewrite A in B; injection B as B; subst end.
    match goal with A : fields ?t = Some (map _ ?x), B : fields ?t = Some (map _ ?y) |- _ => rewrite A in B; injection B as B; apply (map_inj _ (wlen_inj 1)) in B; subst end. f_equal.
    match goal with A : Forall2 reads ?bs l, B : Forall2 reads ?bs ?l' |- _ => revert A B; generalize bs; generalize l' end. clear - IH.
    induction IH as [|d l Hd _ IHl]; intros l' bs A B; inversion A; subst; inversion B; subst; [reflexivity|]. f_equal; eauto.
Qed.
Lemma struct_fun t m m' : reads_struct t m -> reads_struct t m' -> m = m'.
Proof.
  intros (es & H1 & _ & H2) (es' & H3 & _ & H4). rewrite H1 in H3. injection H3 as H3. apply (map_inj _ (wlen_inj 1)) in H3 as <-.
  eapply entries_fun; [|exact H2|exact H4]. apply Forall_forall. intros [k d] _ s d'. apply reads_fun.
Qed.
(** a Value is no Struct *)
Lemma value_no_struct s d m : reads s d -> ~ reads_struct s m.
Proof.
  intros H (es & H1 & _ & _). inversion H; subst; match goal with A : fields s = Some [_] |- _ => rewrite A in H1 end;
    destruct es as [|e [|e' es]]; discriminate.
Qed.

(** ** Sorted maps *)
Section Order.
Import P_Scope.
Lemma bt_insert_comm {A} (k k' : text) (v v' : A) m : k <> k' -> bt_insert k v (bt_insert k' v' m) = bt_insert k' v' (bt_insert k v m).
Proof.
  intros Hne. assert (Hx : text_eqb k k' = false) by now apply text_eqb_neq. assert (Hy : text_eqb k' k = false) by (apply text_eqb_neq; congruence).
  induction m as [|[q w] m IH]; cbn [bt_insert].
  - rewrite Hx, Hy. destruct (text_leb k k') eqn:L1, (text_leb k' k) eqn:L2; try reflexivity; [destruct Hne; now apply leb_antisym|apply leb_total in L1; congruence].
  - destruct (text_eqb k q) eqn:E1.
    + apply text_eqb_eq in E1. subst q. cbn [bt_insert]. rewrite Hy. destruct (text_leb k' k) eqn:L2; cbn [bt_insert].
      * rewrite Hx. destruct (text_leb k k') eqn:L1; [destruct Hne; now apply leb_antisym|]. rewrite text_eqb_refl. reflexivity.
      * rewrite text_eqb_refl. reflexivity.
    + destruct (text_eqb k' q) eqn:E2.
      * apply text_eqb_eq in E2. subst q. cbn [bt_insert]. rewrite Hx. destruct (text_leb k k') eqn:L1; cbn [bt_insert].
        -- rewrite Hy. destruct (text_leb k' k) eqn:L2; [destruct Hne; now apply leb_antisym|]. rewrite text_eqb_refl. reflexivity.
        -- rewrite text_eqb_refl. reflexivity.
      * destruct (text_leb k q) eqn:L1, (text_leb k' q) eqn:L2; cbn [bt_insert]; rewrite ?Hx, ?Hy, ?E1, ?E2, ?L1, ?L2; try reflexivity.
        -- destruct (text_leb k k') eqn:L3, (text_leb k' k) eqn:L4; try reflexivity; [destruct Hne; now apply leb_antisym|apply leb_total in L3; congruence].
        -- destruct (text_leb k' k) eqn:L4; [|reflexivity]. rewrite (leb_trans _ _ _ L4 L1) in L2. discriminate.
        -- destruct (text_leb k k') eqn:L4; [|reflexivity]. rewrite (leb_trans _ _ _ L4 L2) in L1. discriminate.
        -- now rewrite IH.
Qed.
End Order.
Definition sorted_of {A} (es : list (text * A)) (m : list (text * A)) : list (text * A) := fold_left (fun m kv => bt_insert (fst kv) (snd kv) m) es m.
Lemma sorted_perm {A} (es es' : list (text * A)) : Permutation es es' -> NoDup (map fst es) -> forall m, sorted_of es m = sorted_of es' m.
Proof.
  unfold sorted_of. induction 1 as [|[k v] l l' _ IH|[k v] [k' v'] l|l l' l'' H1 IH1 H2 IH2]; intros Hn m.
  - reflexivity.
  - cbn. apply IH. cbn in Hn. now inversion Hn.
  - cbn. cbn in Hn. inversion_clear Hn as [|? ? Hk _]. rewrite bt_insert_comm; [reflexivity|]. intros ->. apply Hk. now left.
  - rewrite IH1 by exact Hn. apply IH2. eapply Permutation_NoDup; [|exact Hn]. now apply Permutation_map.
Qed.
Lemma bt_insert_fresh {A} k (v : A) m : ~ In k (map fst m) -> Permutation ((k, v) :: m) (bt_insert k v m).
Proof.
  induction m as [|[q w] m IH]; cbn [bt_insert map fst]; intros H; [reflexivity|].
  destruct (text_eqb k q) eqn:E1; [apply text_eqb_eq in E1; subst; destruct H; now left|].
  destruct (text_leb k q); [reflexivity|]. rewrite perm_swap. apply perm_skip. apply IH. intros K. apply H. now right.
Qed.
Lemma sorted_of_perm {A} (es : list (text * A)) : forall m, NoDup (map fst es ++ map fst m) -> Permutation (es ++ m) (sorted_of es m).
Proof.
  unfold sorted_of. induction es as [|[k v] es IH]; intros m Hn; [reflexivity|]. cbn [fold_left app fst snd].
  assert (Hp : Permutation ((k, v) :: m) (bt_insert k v m)).
  { apply bt_insert_fresh. cbn in Hn. inversion_clear Hn as [|? ? H _]. intros K. apply H, in_or_app. now right. }
  rewrite <- IH.
  - rewrite <- Hp. change ((k, v) :: es ++ m) with ([(k, v)] ++ (es ++ m)). rewrite app_assoc. change ((k, v) :: m) with ([(k, v)] ++ m). rewrite app_assoc. apply Permutation_app_tail. apply Permutation_app_comm.
  - eapply Permutation_NoDup; [|exact Hn]. cbn [map app fst]. rewrite <- Hp. cbn [map fst]. apply Permutation_middle.
Qed.

(** ** Text *)
Lemma lossy_valid_text n : forall s, List.length s <= n -> utf8_valid s = true -> utf8_lossy s = s.
Proof.
  unfold utf8_valid. induction n as [|n IH]; intros [|a s] Hl H; try reflexivity; [cbn in Hl; lia|].
  assert (K : forall t, (List.length t <= n)%nat -> utf8_decode t <> None -> utf8_lossy t = t).
  { intros t Ht Hd. apply IH; [exact Ht|]. now destruct (utf8_decode t). }
  assert (Hnn : utf8_decode (a :: s) <> None) by now destruct (utf8_decode (a :: s)). clear H. cbn [utf8_decode] in Hnn. cbn [utf8_lossy]. cbn in Hl.
  assert (HM : forall (o : option (list N)) (g : list N -> list N), option_map g o <> None -> o <> None) by (intros [|] g; easy).
  destruct (N.ltb (bval a) 128); [f_equal; apply K; [lia|eauto]|].
  unfold in_rng, is_cont, second_ok, is_cont, in_rng in *.
  destruct (N.leb_spec 194 (bval a)) as [H1|H1]; cbn [andb] in *.
  2:{ replace (N.leb 224 (bval a)) with false in Hnn by (symmetry; apply N.leb_gt; lia). replace (N.leb 240 (bval a)) with false in Hnn by (symmetry; apply N.leb_gt; lia). now destruct Hnn. }
  destruct (N.leb_spec (bval a) 223) as [H2|H2].
  - replace (N.leb (bval a) 244) with true by (symmetry; apply N.leb_le; lia). destruct s as [|b s]; [easy|].
    destruct (N.leb 128 (bval b) && N.leb (bval b) 191)%bool; [|easy]. cbn [andb].
    replace (N.eqb (bval a) 224) with false by (symmetry; apply N.eqb_neq; lia). replace (N.eqb (bval a) 237) with false by (symmetry; apply N.eqb_neq; lia).
    replace (N.eqb (bval a) 240) with false by (symmetry; apply N.eqb_neq; lia). replace (N.eqb (bval a) 244) with false by (symmetry; apply N.eqb_neq; lia). cbn [negb orb andb].
    do 2 f_equal. apply K; [cbn in Hl; lia|eauto].
  - replace (N.leb 224 (bval a)) with true in * by (symmetry; apply N.leb_le; lia). cbn [andb] in *.
    destruct (N.leb_spec (bval a) 239) as [H3|H3].
    + replace (N.leb (bval a) 244) with true by (symmetry; apply N.leb_le; lia). destruct s as [|b [|c s]]; [easy|easy|].
      replace (N.eqb (bval a) 240) with false by (symmetry; apply N.eqb_neq; lia). replace (N.eqb (bval a) 244) with false by (symmetry; apply N.eqb_neq; lia). cbn [negb orb andb].
      destruct (N.leb 128 (bval b) && N.leb (bval b) 191)%bool; [|easy]. cbn [andb] in *. destruct (N.leb 128 (bval c) && N.leb (bval c) 191)%bool; [|easy]. cbn [andb] in *.
      destruct (negb (N.eqb (bval a) 224) || N.leb 160 (bval b))%bool; [|easy]. cbn [andb] in *. destruct (negb (N.eqb (bval a) 237) || N.leb (bval b) 159)%bool; [|easy]. cbn [andb] in *.
      do 3 f_equal. apply K; [cbn in Hl; lia|eauto].
    + replace (N.leb 240 (bval a)) with true in * by (symmetry; apply N.leb_le; lia). cbn [andb] in *. destruct (N.leb (bval a) 244); [|easy].
      destruct s as [|b [|c [|d s]]]; [easy|easy|easy|].
      replace (N.eqb (bval a) 224) with false by (symmetry; apply N.eqb_neq; lia). replace (N.eqb (bval a) 237) with false by (symmetry; apply N.eqb_neq; lia). cbn [negb orb andb].
      destruct (N.leb 128 (bval b) && N.leb (bval b) 191)%bool; [|easy]. cbn [andb] in *. destruct (N.leb 128 (bval c) && N.leb (bval c) 191)%bool; [|easy]. cbn [andb] in *. destruct (N.leb 128 (bval d) && N.leb (bval d) 191)%bool; [|easy]. cbn [andb] in *.
      destruct (negb (N.eqb (bval a) 240) || N.leb 144 (bval b))%bool; [|easy]. cbn [andb] in *. destruct (negb (N.eqb (bval a) 244) || N.leb (bval b) 143)%bool; [|easy]. cbn [andb] in *.
      do 4 f_equal. apply K; [cbn in Hl; lia|eauto].
Qed.
Lemma lossy_id s : utf8_valid s = true -> utf8_lossy s = s.
Proof. apply (lossy_valid_text (List.length s)). apply le_n. Qed.
Lemma lossy_valid_n n : forall s, List.length s <= n -> utf8_valid (utf8_lossy s) = true.
Proof.
  induction n as [|n IH]; intros [|a s] Hl; try reflexivity; [cbn in Hl; lia|]. cbn [utf8_lossy]. cbn in Hl.
  assert (KR : forall t, (List.length t <= n)%nat -> utf8_valid (replacement ++ utf8_lossy t) = true) by (intros t Ht; apply valid_app; [reflexivity|auto]).
  assert (KV : forall x t, (List.length t <= n)%nat -> utf8_valid x = true -> utf8_valid (x ++ utf8_lossy t) = true) by (intros x t Ht Hx; apply valid_app; auto).
  destruct (N.ltb (bval a) 128) eqn:H0; [apply (KV [a]); [lia|unfold utf8_valid; cbn [utf8_decode]; now rewrite H0]|].
  destruct (in_rng 194 244 a) eqn:H1; [|apply KR; lia]. destruct s as [|b s]; [reflexivity|]. cbn in Hl.
  destruct (second_ok a b) eqn:H2; [|apply KR; cbn; lia].
  assert (Hb : is_cont b = true) by (unfold second_ok in H2; now destruct (is_cont b)).
  assert (H2' := H2). unfold second_ok in H2'. rewrite Hb in H2'. cbn [andb] in H2'. rewrite !andb_true_iff in H2'. destruct H2' as (((S1 & S2) & S3) & S4).
  destruct (in_rng 194 223 a) eqn:H3; [apply (KV [a; b]); [lia|]; unfold utf8_valid; cbn [utf8_decode]; now rewrite H0, H3, Hb|].
  destruct s as [|c s]; [reflexivity|]. cbn in Hl. destruct (is_cont c) eqn:H4; [|apply KR; cbn; lia].
  destruct (in_rng 224 239 a) eqn:H5; [apply (KV [a; b; c]); [lia|]; unfold utf8_valid; cbn [utf8_decode]; now rewrite H0, H3, H5, Hb, H4, S1, S2|].
  destruct s as [|d s]; [reflexivity|]. cbn in Hl. destruct (is_cont d) eqn:H6; [|apply KR; cbn; lia].
  apply (KV [a; b; c; d]); [lia|]. unfold utf8_valid. cbn [utf8_decode]. rewrite H0, H3, H5.
  assert (in_rng 240 244 a = true) as ->. { unfold in_rng in *. revert H1 H3 H5. rewrite !andb_true_iff, !andb_false_iff, !N.leb_le, !N.leb_gt. lia. }
  now rewrite Hb, H4, H6, S3, S4.
Qed.
Lemma lossy_valid s : utf8_valid (utf8_lossy s) = true.
Proof. apply (lossy_valid_n (List.length s)). apply le_n. Qed.

(** ** From values to documents *)
Fixpoint doc_of (x : pv) : doc :=
  match x with
  | PvNull => DNull | PvNum b => DNum b | PvStr s => DStr s | PvBool b => DBool b
  | PvStruct m => DMap (map (fun kx => (fst kx, doc_of (snd kx))) m)
  | PvList l => DList (map doc_of l)
  end.
Inductive pv_ok : pv -> Prop :=
| pk_null : pv_ok PvNull
| pk_num b : (b < 2 ^ 64)%N -> pv_ok (PvNum b)
| pk_str s : utf8_valid s = true -> pv_ok (PvStr s)
| pk_bool b : pv_ok (PvBool b)
| pk_struct m : NoDup (map fst m) -> Forall (fun kx => utf8_valid (fst kx) = true /\ pv_ok (snd kx)) m -> pv_ok (PvStruct m)
| pk_list l : Forall pv_ok l -> pv_ok (PvList l).
Lemma map_fst_pair {A B} (g : A -> B) (m : list (text * A)) : map fst (map (fun kx => (fst kx, g (snd kx))) m) = map fst m.
Proof. rewrite map_map. reflexivity. Qed.
Lemma entry_written k b : utf8_valid k = true -> entry ((match k with [] => [] | _ => len_field 1 k end) ++ len_field 2 b) k b.
Proof.
  intros Hk. split; [exact Hk|]. rewrite <- (app_nil_r (len_field 2 b)).
  destruct k as [|a k]; [right|left]; [split; [reflexivity|]|]; cbn [app]; rewrite ?fields_len by reflexivity; reflexivity.
Qed.
Lemma fields_entries m : fields (struct_bytes m) = Some (map (fun e => (1%N, WLen e)) (map (fun kx => (match fst kx with [] => [] | _ => len_field 1 (fst kx) end) ++ len_field 2 (pv_bytes (snd kx))) m)).
Proof. unfold struct_bytes, entry_bytes. rewrite (fields_repeat 1 (fun kx : text * pv => (match fst kx with [] => [] | _ => len_field 1 (fst kx) end) ++ len_field 2 (pv_bytes (snd kx))) m) by reflexivity. now rewrite map_map. Qed.
Lemma entries_read m : Forall (fun kx => utf8_valid (fst kx) = true /\ reads (pv_bytes (snd kx)) (doc_of (snd kx))) m ->
  Forall2 (fun e kd => exists b, entry e (fst kd) b /\ reads b (snd kd))
    (map (fun kx => (match fst kx with [] => [] | _ => len_field 1 (fst kx) end) ++ len_field 2 (pv_bytes (snd kx))) m) (map (fun kx => (fst kx, doc_of (snd kx))) m).
Proof. induction 1 as [|[k x] m [Hk Hx] _ IH]; [constructor|]. cbn [map]. constructor; [|exact IH]. exists (pv_bytes x). split; [now apply entry_written|exact Hx]. Qed.
Lemma pv_reads x : pv_ok x -> reads (pv_bytes x) (doc_of x).
Proof.
  induction x as [|b|s|b|m IH|l IH] using pv_ind'; intros H; inversion H; subst; cbn [pv_bytes doc_of].
  - apply rd_null. reflexivity.
  - apply rd_num. rewrite <- (app_nil_r (f64_field 2 b)). rewrite fields_f64 by (reflexivity || assumption). reflexivity.
  - apply rd_str; [|assumption]. rewrite <- (app_nil_r (len_field 3 s)). rewrite fields_len by reflexivity. reflexivity.
  - apply rd_bool. destruct b; reflexivity.
  - fold (struct_bytes m). eapply rd_map; [|apply fields_entries| |].
    + rewrite <- (app_nil_r (len_field 5 (struct_bytes m))). rewrite fields_len by reflexivity. reflexivity.
    + now rewrite map_fst_pair.
    + apply entries_read. rewrite Forall_forall in *. intros kx Hi. match goal with A : forall _, In _ m -> _ /\ _ |- _ => destruct (A kx Hi) end. auto.
  - eapply rd_list; [| |].
    + rewrite <- (app_nil_r (len_field 6 _)). rewrite fields_len by reflexivity. reflexivity.
    + rewrite (fields_repeat 1 pv_bytes l) by reflexivity. rewrite <- map_map with (g := fun e => (1%N, WLen e)). reflexivity.
    + match goal with A : Forall pv_ok l |- _ => revert A end. clear - IH. induction IH as [|x l Hx _ IHl]; intros A; inversion_clear A; constructor; auto.
Qed.
Lemma struct_reads m : pv_ok (PvStruct m) -> reads_struct (struct_bytes m) (map (fun kx => (fst kx, doc_of (snd kx))) m).
Proof.
  intros H. inversion H; subst. eexists. split; [apply fields_entries|]. rewrite map_fst_pair. split; [assumption|]. apply entries_read.
  match goal with A : Forall _ m |- _ => eapply Forall_impl; [|exact A] end. cbn beta. intros kx [A B]. split; [exact A|now apply pv_reads].
Qed.

Lemma all_ok_spec {A} (l : list (option A)) m : all_ok l = Some m <-> l = map Some m.
Proof.
  revert m. induction l as [|[x|] l IH]; intros m; cbn [all_ok].
  - split; [intros [= <-]; reflexivity|destruct m; [reflexivity|discriminate]].
  - destruct (all_ok l) as [m'|]; split.
    + intros [= <-]. cbn. f_equal. now apply IH.
    + destruct m as [|y m]; [discriminate|]. cbn. intros [= -> H]. apply IH in H. congruence.
    + discriminate.
    + destruct m as [|y m]; [discriminate|]. cbn. intros [= -> H]. apply IH in H. discriminate.
  - split; [discriminate|destruct m; discriminate].
Qed.
Lemma all_ok_none {A} (l : list (option A)) : all_ok l = None <-> In None l.
Proof.
  induction l as [|[x|] l IH]; cbn [all_ok In].
  - split; [discriminate|intros []].
  - destruct (all_ok l) as [m|]; split; intros H; try discriminate.
    + destruct H as [H|H]; [discriminate|]. apply IH in H. discriminate.
    + right. now apply IH.
    + reflexivity.
  - split; auto.
Qed.
Definition entry_of (kv : mkey * value) : option (text * pv) := match fst kv with KStr k => option_map (pair k) (to_prost (snd kv)) | _ => None end.
Lemma to_prost_map l : to_prost (VMap l) = match all_ok (map entry_of l) with Some es => Some (PvStruct (sorted_of es [])) | None => None end.
Proof. reflexivity. Qed.

(** everything that is converted is written so that it can be read *)
Lemma to_prost_ok v : cel_ok v -> forall x, to_prost v = Some x -> pv_ok x.
Proof.
  induction v as [|b|z|n|b|s|s|l IH|l IH|n l IH|z|z] using value_ind'; intros Hok x; inversion Hok; subst.
  - intros [= <-]. constructor.
  - intros [= <-]. constructor.
  - intros [= <-]. constructor. assert (Hz : (Z.abs z < 2 ^ 64)%Z) by lia. destruct (f64_of_Z_near z Hz) as [[-> _]|((H & _) & _)]; [reflexivity|exact H].
  - intros [= <-]. rewrite f64_of_N_Z. constructor. assert (Hz : (Z.abs (Z.of_N n) < 2 ^ 64)%Z) by lia. destruct (f64_of_Z_near _ Hz) as [[-> _]|((Hn & _) & _)]; [reflexivity|exact Hn].
  - intros [= <-]. now constructor.
  - intros [= <-]. now constructor.
  - intros [= <-]. constructor. apply lossy_valid.
  - cbn [to_prost]. destruct (all_ok (map to_prost l)) as [xs|] eqn:He; [|discriminate]. intros [= <-]. apply all_ok_spec in He. constructor.
    match goal with A : Forall cel_ok l |- _ => revert A end. revert xs He. clear Hok. induction IH as [|v l Hv _ IHl]; intros [|y xs] He A; try discriminate; constructor.
    + cbn in He. injection He as He _. inversion_clear A. auto.
    + cbn in He. injection He as _ He. inversion_clear A. auto.
  - rewrite to_prost_map. destruct (all_ok (map entry_of l)) as [es|] eqn:He; [|discriminate]. intros [= <-]. apply all_ok_spec in He.
    match goal with A : NoDup (map fst l), B : forall s, In _ _ -> _, C : Forall _ l |- _ => rename A into HN, B into HU, C into HC end.
    assert (Hk : map KStr (map fst es) = map fst l /\ Forall (fun kx => pv_ok (snd kx)) es).
    { clear Hok HN HU. revert es He. induction IH as [|[k v] l Hv _ IHl]; intros [|[k' y] es] He; try discriminate; [split; [reflexivity|constructor]|].
      cbn in He. injection He as H1 H2. inversion_clear HC as [|? ? C1 C2]. destruct (IHl C2 es H2) as [K1 K2]. unfold entry_of in H1. cbn [fst snd] in *.
      destruct k; try discriminate. destruct (to_prost v) as [w|] eqn:Hw; [|discriminate]. cbn in H1. injection H1 as -> ->. split; [cbn; now rewrite K1|]. constructor; [cbn; auto|exact K2]. }
    destruct Hk as [K1 K2]. assert (HN' : NoDup (map fst es)) by (rewrite <- K1 in HN; now apply NoDup_map_inv in HN).
    assert (HP : Permutation es (sorted_of es [])) by (rewrite <- (app_nil_r es) at 1; apply sorted_of_perm; now rewrite app_nil_r). constructor.
    + eapply Permutation_NoDup; [apply Permutation_map; exact HP|exact HN'].
    + eapply Permutation_Forall; [exact HP|]. rewrite Forall_forall in *. intros kx Hi. split; [|auto]. apply HU. rewrite <- K1. apply in_map, in_map. exact Hi.
  - discriminate.
  - discriminate.
  - discriminate.
Qed.
(** what can be shown is shown *)
Lemma to_prost_shows v : cel_ok v -> portable v -> exists x, to_prost v = Some x /\ shows v (doc_of x).
Proof.
  induction v as [|b|z|n|b|s|s|l IH|l IH|n l IH|z|z] using value_ind'; intros Hok Hp; inversion Hp; subst; inversion Hok; subst.
  - eexists. split; [reflexivity|constructor].
  - eexists. split; [reflexivity|constructor].
  - eexists. split; [reflexivity|]. constructor. now apply f64_of_Z_exact.
  - eexists. split; [reflexivity|]. cbn [doc_of]. rewrite f64_of_N_Z. constructor. apply f64_of_Z_exact. lia.
  - eexists. split; [reflexivity|constructor].
  - eexists. split; [reflexivity|constructor].
  - eexists. split; [reflexivity|]. cbn [doc_of]. rewrite lossy_id by assumption. constructor.
  - match goal with A : Forall portable l, B : Forall cel_ok l |- _ => assert (K : exists xs, map to_prost l = map Some xs /\ Forall2 shows l (map doc_of xs)) end.
    { match goal with A : Forall portable l, B : Forall cel_ok l |- _ => revert A B end. clear - IH. induction IH as [|v l Hv _ IHl]; intros A B; [exists []; split; [reflexivity|constructor]|].
      inversion_clear A as [|? ? A1 A2]. inversion_clear B as [|? ? B1 B2]. destruct (Hv B1 A1) as (x & X1 & X2). destruct (IHl A2 B2) as (xs & Y1 & Y2). exists (x :: xs). cbn. rewrite X1, Y1. split; [reflexivity|now constructor]. }
    destruct K as (xs & K1 & K2). exists (PvList xs). cbn [to_prost]. apply all_ok_spec in K1. rewrite K1. split; [reflexivity|]. cbn [doc_of]. now constructor.
  - match goal with A : NoDup (map fst l), B : Forall (fun kv => cel_ok _) l, C : Forall (fun kv => (exists k, _) /\ _) l |- _ => rename A into HN, B into HC, C into HA end.
    assert (K : exists es, map entry_of l = map Some es /\ Forall2 (fun kv kd => fst kv = KStr (fst kd) /\ shows (snd kv) (snd kd)) l (map (fun kx => (fst kx, doc_of (snd kx))) es) /\ map KStr (map fst es) = map fst l).
    { clear - IH HA HC. induction IH as [|[k v] l Hv _ IHl]; [exists []; split; [reflexivity|split; [constructor|reflexivity]]|].
      inversion_clear HA as [|? ? [(k' & A0) A1] A2]. inversion_clear HC as [|? ? B1 B2]. cbn [fst snd] in *. subst k. destruct (Hv B1 A1) as (px & X1 & X2). destruct (IHl A2 B2) as (xs & Y1 & Y2 & Y3).
      exists ((k', px) :: xs). cbn [map]. unfold entry_of at 1. cbn [fst snd]. rewrite X1, Y1, Y3. split; [reflexivity|]. split; [constructor; [split; [reflexivity|exact X2]|exact Y2]|reflexivity]. }
    destruct K as (es & K1 & K2 & K3). rewrite to_prost_map. apply all_ok_spec in K1. rewrite K1. eexists. split; [reflexivity|]. cbn [doc_of]. eapply sh_map; [exact K2|].
    apply Permutation_map. rewrite <- (app_nil_r es) at 1. apply sorted_of_perm. rewrite app_nil_r. rewrite <- K3 in HN. now apply NoDup_map_inv in HN.
Qed.
(** the document determines what is written *)
Fixpoint canon (d : doc) : pv :=
  match d with
  | DNull => PvNull | DNum b => PvNum b | DStr s => PvStr s | DBool b => PvBool b
  | DMap m => PvStruct (sorted_of (map (fun kd => (fst kd, canon (snd kd))) m) [])
  | DList l => PvList (map canon l)
  end.
Lemma shows_canon v : cel_ok v -> portable v -> forall d, shows v d -> to_prost v = Some (canon d).
Proof.
  induction v as [|b|z|n|b|s|s|l IH|l IH|n l IH|z|z] using value_ind'; intros Hok Hp d Hs; inversion Hs; subst; inversion Hp; subst; inversion Hok; subst; cbn [canon]; try reflexivity.
  - cbn [to_prost]. do 2 f_equal. eapply number_fun; [now apply f64_of_Z_exact|assumption].
  - cbn [to_prost]. rewrite f64_of_N_Z. do 2 f_equal. eapply number_fun; [|eassumption]. apply f64_of_Z_exact. lia.
  - cbn [to_prost]. now rewrite lossy_id.
  - cbn [to_prost]. match goal with A : Forall2 shows l ?m |- _ => assert (K : map to_prost l = map Some (map canon m)) end.
    { repeat match goal with A : Forall _ l |- _ => revert A | A : Forall2 _ l _ |- _ => revert A end. clear - m. revert m. induction l as [|v l IHl]; intros m; intros; match goal with A : Forall2 _ _ m |- _ => inversion A; subst end; [reflexivity|].
      repeat match goal with A : Forall _ (v :: l) |- _ => inversion_clear A end. cbn [map]. f_equal; auto. }
    apply all_ok_spec in K. now rewrite K.
  - match goal with A : NoDup (map fst l), B : Forall2 _ l ?m', C : Permutation ?m' ?m |- _ => rename A into HN, B into HF2, C into HP; rename m' into m1 end.
    assert (K : map entry_of l = map Some (map (fun kd => (fst kd, canon (snd kd))) m1) /\ map KStr (map fst m1) = map fst l).
    { match goal with A : Forall (fun kv => (exists k, _) /\ _) l, B : Forall (fun kv => cel_ok _) l |- _ => clear - IH A B HF2 end. revert m1 HF2. induction IH as [|[k v] l Hv _ IHl]; intros m1 HF2; inversion HF2; subst; [split; reflexivity|].
      repeat match goal with A : Forall _ (_ :: l) |- _ => inversion_clear A end. match goal with A : _ = KStr _ /\ _ |- _ => destruct A as [A1 A2] end. cbn [fst snd] in *. subst k.
      match goal with A : Forall2 _ l ?r |- _ => destruct (IHl ltac:(assumption) ltac:(assumption) _ A) as [K1 K2] end.
      cbn [map]. rewrite K1, <- K2. unfold entry_of at 1. cbn [fst snd]. match goal with A : _ /\ portable v |- _ => destruct A as [_ A] end. rewrite (Hv ltac:(assumption) ltac:(assumption) _ A2). split; reflexivity. }
    destruct K as [K1 K2]. rewrite to_prost_map. apply all_ok_spec in K1. rewrite K1. do 2 f_equal. apply sorted_perm.
    + now apply Permutation_map.
    + rewrite map_fst_pair. rewrite <- K2 in HN. now apply NoDup_map_inv in HN.
Qed.

(** * C91 *)
Lemma bytes_of v x : to_prost v = Some x -> value_bytes v = Some (match v, x with VMap _, PvStruct m => struct_bytes m | _, _ => pv_bytes x end).
Proof.
  intros H. unfold value_bytes. destruct v; rewrite H; try reflexivity. rewrite to_prost_map in H. destruct (all_ok (map entry_of l)); [|discriminate]. injection H as <-. reflexivity.
Qed.
Lemma back_of v x : pv_ok x -> to_prost v = Some x -> read_back v (match v, x with VMap _, PvStruct m => struct_bytes m | _, _ => pv_bytes x end) (doc_of x).
Proof.
  intros Hk H. destruct v; try exact (pv_reads x Hk). rewrite to_prost_map in H. destruct (all_ok (map entry_of l)) as [es|]; [|discriminate]. injection H as <-.
  eexists. split; [reflexivity|]. now apply struct_reads.
Qed.
(** Null, booleans, text, floats, integers up to 2^53, lists of such values and maps from text to
    such values are exported as bytes in which every reader of the documented type finds
    the same content.
    Missing for the full claim: larger integers and byte strings that are not text, see below. *)
Theorem C91_exported_values_read_back_partial v : cel_ok v -> portable v ->
  exists s d, value_bytes v = Some s /\ shows v d /\ read_back v s d.
Proof.
  intros Hok Hp. destruct (to_prost_shows v Hok Hp) as (x & H1 & H2). eexists _, (doc_of x). split; [apply bytes_of; exact H1|]. split; [exact H2|].
  apply back_of; [|exact H1]. eapply to_prost_ok; eauto.
Qed.
Print Assumptions C91_exported_values_read_back_partial.
(** Whatever is exported is a document. *)
Theorem C91_exports_are_documents v s : cel_ok v -> value_bytes v = Some s -> exists d, read_back v s d.
Proof.
  intros Hok H. destruct (to_prost v) as [x|] eqn:Hx; [|exfalso; revert H; unfold value_bytes; now destruct v; rewrite Hx].
  rewrite (bytes_of v x Hx) in H. injection H as <-. exists (doc_of x). apply back_of; [eapply to_prost_ok; eauto|exact Hx].
Qed.
Print Assumptions C91_exports_are_documents.
(** Every integer is read as the number itself up to 2^53, and above as the nearest there is, which is
    within one part in 2^53 of it. *)
Theorem C91_integers_are_close_partial v z s : cel_ok v -> v = VInt z \/ (exists n, v = VUInt n /\ z = Z.of_N n) -> value_bytes v = Some s ->
  exists b, reads s (DNum b) /\ near b z /\ nearest b z /\ ((Z.abs z <= 2 ^ 53)%Z -> number b z).
Proof.
  intros Hok Hv Hs. assert (K : value_bytes v = Some (pv_bytes (PvNum (f64_of_Z z))) /\ (Z.abs z < 2 ^ 64)%Z).
  { destruct Hv as [->|(n & -> & ->)]; inversion Hok; subst; (split; [|lia]); unfold value_bytes; cbn [to_prost]; rewrite ?f64_of_N_Z; reflexivity. }
  destruct K as [K1 K2]. rewrite K1 in Hs. injection Hs as <-. exists (f64_of_Z z). pose proof (f64_of_Z_near z K2) as Hn. split; [|split; [exact Hn|split; [now apply f64_of_Z_nearest|apply f64_of_Z_exact]]].
  apply (pv_reads (PvNum (f64_of_Z z))). constructor. destruct Hn as [[-> _]|((H & _) & _)]; [reflexivity|exact H].
Qed.
Print Assumptions C91_integers_are_close_partial.
(** Two different integers are exported as the same bytes. *)
Theorem C91_large_integers_fall_together_refuted : exists z z', z <> z' /\ cel_ok (VInt z) /\ cel_ok (VInt z') /\
  value_bytes (VInt z) <> None /\ value_bytes (VInt z) = value_bytes (VInt z').
Proof. exists (2 ^ 53)%Z, (2 ^ 53 + 1)%Z. split; [discriminate|]. split; [constructor; lia|]. split; [constructor; lia|]. split; [discriminate|vm_compute; reflexivity]. Qed.
Print Assumptions C91_large_integers_fall_together_refuted.
(** So are two different byte strings; nothing tells the reader that bytes were lost. *)
Theorem C91_byte_strings_fall_together_refuted : exists s t, s <> t /\ value_bytes (VBytes s) <> None /\ value_bytes (VBytes s) = value_bytes (VBytes t).
Proof. exists [ascii_of_N 254], [ascii_of_N 255]. split; [discriminate|]. split; [discriminate|vm_compute; reflexivity]. Qed.
Print Assumptions C91_byte_strings_fall_together_refuted.
Definition account : value := VMap [(KStr (tx "user"), VString (tx "alice")); (KStr (tx "age"), VInt (-42)); (KStr [], VList [VBool true; VNull; VFloat 4609434218613702656]);
  (KStr (tx "more"), VMap [(KStr (tx "raw"), VBytes (tx "x")); (KStr (tx "n"), VUInt 9007199254740992)])].
Example ex91_ok : cel_ok account.
Proof.
  unfold account. constructor.
  - repeat constructor; cbn; intuition discriminate.
  - cbn. intros s H. repeat (destruct H as [[= <-]|H]; [reflexivity|]). destruct H.
  - repeat constructor; cbn; try lia; try (intuition discriminate). cbn. intros s H. repeat (destruct H as [[= <-]|H]; [reflexivity|]). destruct H.
Qed.
Example ex91 : portable account.
Proof. unfold account. repeat first [constructor|eexists; reflexivity]; cbn; lia. Qed.
Example ex91_bytes : value_bytes (VMap [(KStr (tx "b"), VInt 1); (KStr (tx "a"), VString (tx "x"))]) =
  Some (map ascii_of_N [10; 8; 10; 1; 97; 18; 3; 26; 1; 120; 10; 14; 10; 1; 98; 18; 9; 17; 0; 0; 0; 0; 0; 0; 240; 63]%N).
Proof. vm_compute. reflexivity. Qed.

(** * C92 *)
(** A value is refused exactly when it has, at any depth, a part that no document can show: a
    struct, a timestamp, a duration or a key that is not text. *)
Theorem C92_only_foreign_values_are_refused v : value_bytes v = None <-> foreign v.
Proof.
  assert (Hb : value_bytes v = None <-> to_prost v = None).
  { unfold value_bytes. destruct v; cbn [to_prost]; try (split; discriminate || reflexivity); try reflexivity.
    - destruct (all_ok _); cbn; split; (discriminate || reflexivity).
    - destruct (all_ok _); split; (discriminate || reflexivity). }
  rewrite Hb. clear Hb. induction v as [|b|z|n|b|s|s|l IH|l IH|n l IH|z|z] using value_ind'; try (split; [discriminate|intros H; inversion H]).
  - cbn [to_prost]. destruct (all_ok (map to_prost l)) as [xs|] eqn:He; cbn [option_map].
    + split; [discriminate|]. intros H. inversion H; subst. rewrite Forall_forall in IH. assert (Hn : to_prost v = None) by (apply IH; assumption).
      exfalso. assert (K : In None (map to_prost l)) by (rewrite <- Hn; now apply in_map). apply all_ok_none in K. congruence.
    + split; [intros _|reflexivity]. apply all_ok_none in He. apply in_map_iff in He as (v & H1 & H2). rewrite Forall_forall in IH. apply (fo_list l v H2). now apply IH.
  - rewrite to_prost_map. destruct (all_ok (map entry_of l)) as [es|] eqn:He.
    + split; [discriminate|]. intros H. exfalso. assert (K : In None (map entry_of l)); [|apply all_ok_none in K; congruence]. rewrite Forall_forall in IH. inversion H; subst.
      * apply in_map_iff. exists (k, v). split; [|assumption]. unfold entry_of. cbn [fst]. destruct k; try reflexivity. edestruct H2; reflexivity.
      * apply in_map_iff. exists (k, v). split; [|assumption]. unfold entry_of. cbn [fst snd]. destruct k; try reflexivity. assert (Hn : to_prost v = None) by (apply (IH (KStr s, v)); assumption). now rewrite Hn.
    + split; [intros _|reflexivity]. apply all_ok_none in He. apply in_map_iff in He as ([k v] & H1 & H2). unfold entry_of in H1. cbn [fst snd] in H1. rewrite Forall_forall in IH.
      destruct k as [z|n|b|s]; [eapply fo_key; [exact H2|discriminate]|eapply fo_key; [exact H2|discriminate]|eapply fo_key; [exact H2|discriminate]|].
      eapply fo_map; [exact H2|]. apply (IH _ H2). cbn [snd]. now destruct (to_prost v).
  - split; [constructor|reflexivity].
  - split; [constructor|reflexivity].
  - split; [constructor|reflexivity].
Qed.
Print Assumptions C92_only_foreign_values_are_refused.
Example ex92 : foreign (VList [VNull; VMap [(KStr (tx "at"), VTimestamp 0)]]) /\ foreign (VMap [(KInt 1, VNull)]) /\ ~ foreign account.
Proof.
  split; [eapply fo_list; [right; left; reflexivity|]; eapply fo_map; [left; reflexivity|constructor]|]. split; [eapply fo_key; [left; reflexivity|discriminate]|].
  intros H. apply C92_only_foreign_values_are_refused in H. revert H. vm_compute. discriminate.
Qed.

(** * C93 *)
Lemma shows_map v d : shows v d -> (exists l, v = VMap l) <-> exists m, d = DMap m.
Proof. intros H. inversion H; subst; split; intros (y & Hy); try discriminate; eauto. Qed.
(** Two values are exported as the same bytes exactly when they have the same content: the
    order in which a map holds its entries leaves no trace, and a map is never mistaken for
    something else. *)
Theorem C93_same_bytes_iff_same_content v v' : cel_ok v -> cel_ok v' -> portable v -> portable v' ->
  (value_bytes v = value_bytes v' <-> exists d, shows v d /\ shows v' d).
Proof.
  intros O1 O2 P1 P2. split.
  - intros Heq. destruct (to_prost_shows v O1 P1) as (x & H1 & H2). destruct (to_prost_shows v' O2 P2) as (x' & H1' & H2').
    rewrite (bytes_of _ _ H1), (bytes_of _ _ H1') in Heq. injection Heq as Heq.
    pose proof (back_of v x (to_prost_ok v O1 x H1) H1) as B1. pose proof (back_of v' x' (to_prost_ok v' O2 x' H1') H1') as B2. rewrite <- Heq in B2. clear Heq.
    set (s := match v with VMap _ => _ | _ => _ end) in *. clearbody s. exists (doc_of x). split; [exact H2|]. enough (doc_of x = doc_of x') as -> by exact H2'.
    unfold read_back in *. destruct v, v'; try exact (reads_fun _ _ _ B1 B2);
      try (destruct B1 as (m & -> & B1)); try (destruct B2 as (m' & -> & B2)); try (f_equal; eapply struct_fun; eauto; fail);
      exfalso; (exact (value_no_struct _ _ _ B1 B2) || exact (value_no_struct _ _ _ B2 B1)).
  - intros (d & S1 & S2). rewrite (bytes_of _ _ (shows_canon v O1 P1 d S1)), (bytes_of _ _ (shows_canon v' O2 P2 d S2)). f_equal.
    pose proof (shows_map _ _ S1) as M1. pose proof (shows_map _ _ S2) as M2.
    destruct v, v'; try reflexivity;
      exfalso; ((destruct (proj1 M1) as (m & ->); [eexists; reflexivity|]; destruct (proj2 M2) as (l1 & Hl); [eexists; reflexivity|discriminate]) ||
                (destruct (proj1 M2) as (m & ->); [eexists; reflexivity|]; destruct (proj2 M1) as (l1 & Hl); [eexists; reflexivity|discriminate])).
Qed.
Print Assumptions C93_same_bytes_iff_same_content.
Example ex93 : value_bytes (VMap [(KStr (tx "a"), VInt 1); (KStr (tx "b"), VNull)]) = value_bytes (VMap [(KStr (tx "b"), VNull); (KStr (tx "a"), VFloat 4607182418800017408)]) /\
  value_bytes (VMap []) <> value_bytes (VList []).
Proof. split; [vm_compute; reflexivity|discriminate]. Qed.
