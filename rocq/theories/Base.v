(** Base definitions shared by all model files: byte strings, decimal ids,
    association lists, UTF-8.  No code of /repo is modelled here; these are the
    Gallina counterparts of Rust's [String]/[Vec<u8>] (lists of bytes),
    [HashMap]/[BTreeMap] (association lists) and [usize::to_string]. *)
From Coq Require Import List String Ascii NArith ZArith Bool Lia.
From Coq Require Import Decimal DecimalString DecimalNat.
Import ListNotations.
Open Scope list_scope.

(** Rust [String] and [Vec<u8>]: a list of bytes. *)
Definition text := list ascii.

(** String literal as bytes. *)
Definition tx (s : string) : text := list_ascii_of_string s.
Arguments tx s%string_scope.

Fixpoint text_eqb (a b : text) : bool :=
  match a, b with
  | [], [] => true
  | x :: a', y :: b' => Ascii.eqb x y && text_eqb a' b'
  | _, _ => false
  end.

Fixpoint starts_with (p s : text) : bool :=
  match p, s with
  | [], _ => true
  | x :: p', y :: s' => Ascii.eqb x y && starts_with p' s'
  | _ :: _, [] => false
  end.

(** [str::contains(&str)] *)
Fixpoint contains_sub (p s : text) : bool :=
  starts_with p s ||
  match s with
  | [] => false
  | _ :: s' => contains_sub p s'
  end.

Definition mem_text (x : text) (l : list text) : bool := existsb (text_eqb x) l.

(** [slice::join] *)
Fixpoint join (sep : text) (l : list text) : text :=
  match l with
  | [] => []
  | [x] => x
  | x :: l' => x ++ sep ++ join sep l'
  end.

(** Lexicographic order on bytes (Rust's [Ord for String]). *)
Fixpoint text_leb (a b : text) : bool :=
  match a, b with
  | [], _ => true
  | _ :: _, [] => false
  | x :: a', y :: b' =>
      match N.compare (N_of_ascii x) (N_of_ascii y) with
      | Lt => true
      | Gt => false
      | Eq => text_leb a' b'
      end
  end.

(** Decimal rendering of an index, [usize::to_string]. *)
Definition nat_text (n : nat) : text := list_ascii_of_string (NilEmpty.string_of_uint (Nat.to_uint n)).

(** Association lists standing for maps keyed by [K]. *)
Section Assoc.
  Context {K V : Type} (keqb : K -> K -> bool).
  Fixpoint aget (k : K) (m : list (K * V)) : option V :=
    match m with
    | [] => None
    | (k', v) :: m' => if keqb k k' then Some v else aget k m'
    end.
  (** insert: replaces the binding in place, appends a new key at the end *)
  Fixpoint aset (k : K) (v : V) (m : list (K * V)) : list (K * V) :=
    match m with
    | [] => [(k, v)]
    | (k', v') :: m' => if keqb k k' then (k, v) :: m' else (k', v') :: aset k v m'
    end.
  Fixpoint adel (k : K) (m : list (K * V)) : list (K * V) :=
    match m with
    | [] => []
    | (k', v') :: m' => if keqb k k' then adel k m' else (k', v') :: adel k m'
    end.
End Assoc.

Notation tget := (aget text_eqb).
Notation tset := (aset text_eqb).
Notation nget := (aget N.eqb).
Notation nset := (aset N.eqb).
Notation ndel := (adel N.eqb).

(** Remove one occurrence. *)
Fixpoint remove_one (x : text) (l : list text) : list text :=
  match l with
  | [] => []
  | y :: l' => if text_eqb x y then l' else y :: remove_one x l'
  end.

Definition remove_all (xs l : list text) : list text := fold_left (fun l x => remove_one x l) xs l.

(** UTF-8 (Rust's [String::from_utf8] accepts exactly these byte sequences). *)
Definition bval (a : ascii) : N := N_of_ascii a.
Definition in_rng (lo hi : N) (a : ascii) : bool := (N.leb lo (bval a) && N.leb (bval a) hi)%bool.
Definition is_cont (a : ascii) : bool := in_rng 128 191 a.

Fixpoint utf8_decode (s : text) : option (list N) :=
  match s with
  | [] => Some []
  | a :: s1 =>
      if N.ltb (bval a) 128 then option_map (cons (bval a)) (utf8_decode s1)
      else if in_rng 194 223 a then
        match s1 with
        | b :: s2 => if is_cont b then
            option_map (cons ((bval a - 192) * 64 + (bval b - 128)))%N (utf8_decode s2) else None
        | _ => None
        end
      else if in_rng 224 239 a then
        match s1 with
        | b :: c :: s3 =>
            if is_cont b && is_cont c
               && (negb (N.eqb (bval a) 224) || N.leb 160 (bval b))
               && (negb (N.eqb (bval a) 237) || N.leb (bval b) 159)
            then option_map (cons ((bval a - 224) * 4096 + (bval b - 128) * 64 + (bval c - 128)))%N (utf8_decode s3)
            else None
        | _ => None
        end
      else if in_rng 240 244 a then
        match s1 with
        | b :: c :: d :: s4 =>
            if is_cont b && is_cont c && is_cont d
               && (negb (N.eqb (bval a) 240) || N.leb 144 (bval b))
               && (negb (N.eqb (bval a) 244) || N.leb (bval b) 143)
            then option_map (cons ((bval a - 240) * 262144 + (bval b - 128) * 4096
                                   + (bval c - 128) * 64 + (bval d - 128)))%N (utf8_decode s4)
            else None
        | _ => None
        end
      else None
  end.

Definition utf8_valid (s : text) : bool := match utf8_decode s with Some _ => true | None => false end.

(** UTF-8 encoding of one code point ([char::encode_utf8]). *)
Definition utf8_char (c : N) : text :=
  (if c <? 128 then [ascii_of_N c]
  else if c <? 2048 then [ascii_of_N (192 + c / 64); ascii_of_N (128 + c mod 64)]
  else if c <? 65536 then
    [ascii_of_N (224 + c / 4096); ascii_of_N (128 + (c / 64) mod 64); ascii_of_N (128 + c mod 64)]
  else
    [ascii_of_N (240 + c / 262144); ascii_of_N (128 + (c / 4096) mod 64);
     ascii_of_N (128 + (c / 64) mod 64); ascii_of_N (128 + c mod 64)])%N.
Definition utf8_encode (l : list N) : text := flat_map utf8_char l.

(** Unicode scalar values. *)
Definition is_scalar (c : N) : bool := ((c <? 55296) || ((57344 <=? c) && (c <? 1114112)))%N.

(* ------------------------------------------------------------------ *)
(** * Facts *)

Lemma text_eqb_eq a b : text_eqb a b = true <-> a = b.
Proof.
  revert b; induction a as [|x a IH]; intros [|y b]; simpl; split; intro H; try easy.
  - apply andb_true_iff in H as [H1 H2]. apply Ascii.eqb_eq in H1. apply IH in H2. congruence.
  - inversion H; subst. rewrite Ascii.eqb_refl. simpl. now apply IH.
Qed.

Lemma text_eqb_refl a : text_eqb a a = true.
Proof. now apply text_eqb_eq. Qed.

Lemma text_eqb_neq a b : text_eqb a b = false <-> a <> b.
Proof.
  split; intros H.
  - intros ->. now rewrite text_eqb_refl in H.
  - destruct (text_eqb a b) eqn:E; [apply text_eqb_eq in E; easy|reflexivity].
Qed.

Lemma text_eqb_sym a b : text_eqb a b = text_eqb b a.
Proof.
  destruct (text_eqb a b) eqn:E; symmetry.
  - apply text_eqb_eq in E. subst. apply text_eqb_refl.
  - apply text_eqb_neq in E. apply text_eqb_neq. congruence.
Qed.

Lemma text_eq_dec (a b : text) : {a = b} + {a <> b}.
Proof. destruct (text_eqb a b) eqn:E; [left; now apply text_eqb_eq|right; now apply text_eqb_neq]. Defined.

Lemma mem_text_In x l : mem_text x l = true <-> In x l.
Proof.
  unfold mem_text. rewrite existsb_exists. split.
  - intros (y & H & E). apply text_eqb_eq in E. now subst.
  - intros H. exists x. split; [easy|apply text_eqb_refl].
Qed.

Lemma mem_text_false x l : mem_text x l = false <-> ~ In x l.
Proof.
  rewrite <- mem_text_In. destruct (mem_text x l); split; intro H; try easy.
Qed.

Lemma starts_with_spec p s : starts_with p s = true <-> exists r, s = p ++ r.
Proof.
  revert s; induction p as [|x p IH]; intros s; simpl.
  - split; [exists s; easy|easy].
  - destruct s as [|y s].
    + split; [easy|intros (r & H); easy].
    + rewrite andb_true_iff, Ascii.eqb_eq, IH. split.
      * intros (-> & r & ->). now exists r.
      * intros (r & H). inversion H; subst. split; [easy|now exists r].
Qed.

Lemma contains_sub_spec p s : contains_sub p s = true <-> exists a b, s = a ++ p ++ b.
Proof.
  induction s as [|y s IH]; simpl.
  - rewrite orb_false_r, starts_with_spec. split.
    + intros (r & H). exists [], r. easy.
    + intros (a & b & H). destruct a; [now exists b|easy].
  - rewrite orb_true_iff, IH, starts_with_spec. split.
    + intros [(r & H)|(a & b & H)].
      * exists [], r. easy.
      * exists (y :: a), b. now rewrite H.
    + intros (a & b & H). destruct a as [|z a]; simpl in H.
      * left. now exists b.
      * right. inversion H; subst. now exists a, b.
Qed.

Section AssocFacts.
  Context {K V : Type} (keqb : K -> K -> bool).
  Hypothesis keqb_eq : forall a b, keqb a b = true <-> a = b.

  Lemma keqb_refl' a : keqb a a = true. Proof. now apply keqb_eq. Qed.
  Lemma keqb_neq' a b : keqb a b = false <-> a <> b.
  Proof.
    rewrite <- keqb_eq. destruct (keqb a b); split; intro H; try easy.
  Qed.

  Lemma aget_aset_same k (v : V) m : aget keqb k (aset keqb k v m) = Some v.
  Proof.
    induction m as [|[k' v'] m IH]; simpl.
    - now rewrite keqb_refl'.
    - destruct (keqb k k') eqn:E; simpl; [now rewrite keqb_refl'|now rewrite E].
  Qed.

  Lemma aget_aset_other k k' (v : V) m : k <> k' -> aget keqb k (aset keqb k' v m) = aget keqb k m.
  Proof.
    intros N. induction m as [|[k2 v2] m IH]; simpl.
    - apply keqb_neq' in N. now rewrite N.
    - destruct (keqb k' k2) eqn:E; simpl.
      + apply keqb_eq in E. subst. apply keqb_neq' in N. now rewrite N.
      + now rewrite IH.
  Qed.

  Lemma aget_adel_same k (m : list (K * V)) : aget keqb k (adel keqb k m) = None.
  Proof.
    induction m as [|[k' v'] m IH]; simpl; [easy|].
    destruct (keqb k k') eqn:E; simpl; [easy|now rewrite E].
  Qed.

  Lemma aget_adel_other k k' (m : list (K * V)) : k <> k' -> aget keqb k (adel keqb k' m) = aget keqb k m.
  Proof.
    intros N. induction m as [|[k2 v2] m IH]; simpl; [easy|].
    destruct (keqb k' k2) eqn:E; simpl.
    - apply keqb_eq in E. subst. apply keqb_neq' in N. now rewrite N.
    - now rewrite IH.
  Qed.

  Lemma aget_In k (v : V) m : aget keqb k m = Some v -> In (k, v) m.
  Proof.
    induction m as [|[k' v'] m IH]; simpl; [easy|].
    destruct (keqb k k') eqn:E; intros H.
    - inversion H; subst. apply keqb_eq in E. subst. now left.
    - right. now apply IH.
  Qed.

  Lemma aget_None k (m : list (K * V)) : aget keqb k m = None <-> ~ In k (map fst m).
  Proof.
    induction m as [|[k' v'] m IH]; simpl; [easy|].
    destruct (keqb k k') eqn:E.
    - apply keqb_eq in E. subst. split; [easy|]. intros H. destruct H. now left.
    - rewrite IH. apply keqb_neq' in E. split.
      + intros H [->|H2]; easy.
      + intros H H2. apply H. now right.
  Qed.

  Lemma In_adel k k' (v : V) m : In (k, v) (adel keqb k' m) <-> In (k, v) m /\ k <> k'.
  Proof.
    induction m as [|[k2 v2] m IH]; simpl; [easy|].
    destruct (keqb k' k2) eqn:E.
    - apply keqb_eq in E. subst. rewrite IH. split.
      + intros [H1 H2]. split; [now right|easy].
      + intros [[H1|H1] H2]; [inversion H1; subst; easy|easy].
    - simpl. rewrite IH. apply keqb_neq' in E. split.
      + intros [H|[H1 H2]].
        * inversion H; subst. split; [now left|congruence].
        * split; [now right|easy].
      + intros [[H|H] H2]; [now left|right; easy].
  Qed.

  Lemma aset_fresh k (v : V) m : aget keqb k m = None -> aset keqb k v m = m ++ [(k, v)].
  Proof.
    induction m as [|[k' v'] m IH]; simpl; [easy|].
    destruct (keqb k k') eqn:E; [easy|]. intros H. now rewrite IH.
  Qed.

  Lemma NoDup_adel k (m : list (K * V)) : NoDup (map fst m) -> NoDup (map fst (adel keqb k m)).
  Proof.
    induction m as [|[k2 v2] m IH]; simpl; [easy|]. intros H. inversion H; subst.
    destruct (keqb k k2) eqn:E; [now apply IH|]. simpl. constructor; [|now apply IH].
    intros Hin. apply in_map_iff in Hin as ((a & b) & <- & Hin). simpl in *.
    apply In_adel in Hin as [Hin _]. apply H2. apply in_map_iff. now exists (a, b).
  Qed.

  Lemma map_fst_aset k (v : V) m :
    map fst (aset keqb k v m) = if existsb (keqb k) (map fst m) then map fst m else map fst m ++ [k].
  Proof.
    induction m as [|[k2 v2] m IH]; simpl; [easy|].
    destruct (keqb k k2) eqn:E; simpl.
    - apply keqb_eq in E. now subst.
    - rewrite IH. destruct (existsb (keqb k) (map fst m)); easy.
  Qed.

  Lemma NoDup_aset k (v : V) m : NoDup (map fst m) -> NoDup (map fst (aset keqb k v m)).
  Proof.
    induction m as [|[k2 v2] m IH]; simpl; intros H.
    - constructor; [easy|constructor].
    - inversion H; subst. destruct (keqb k k2) eqn:E; simpl.
      + apply keqb_eq in E. subst. now constructor.
      + constructor; [|now apply IH]. rewrite map_fst_aset.
        destruct (existsb (keqb k) (map fst m)); [easy|].
        rewrite in_app_iff. intros [H1|[H1|[]]]; [easy|]. subst. now rewrite keqb_refl' in E.
  Qed.
End AssocFacts.

Lemma neqb_eq : forall a b : N, N.eqb a b = true <-> a = b.
Proof. exact N.eqb_eq. Qed.

(** Decimal ids *)
Definition is_digit (a : ascii) : bool := in_rng 48 57 a.

Lemma nat_text_inj n m : nat_text n = nat_text m -> n = m.
Proof.
  unfold nat_text. intros H.
  apply (f_equal string_of_list_ascii) in H. rewrite !string_of_list_ascii_of_string in H.
  apply (f_equal NilEmpty.uint_of_string) in H. rewrite !NilEmpty.usu in H.
  inversion H as [H1]. now apply DecimalNat.Unsigned.to_uint_inj.
Qed.

Lemma string_of_uint_digits d :
  forallb is_digit (list_ascii_of_string (NilEmpty.string_of_uint d)) = true.
Proof. induction d; simpl; try rewrite IHd; reflexivity. Qed.

Lemma nat_text_digits n : forallb is_digit (nat_text n) = true.
Proof. apply string_of_uint_digits. Qed.

Lemma nat_text_nonempty n : nat_text n <> [].
Proof.
  unfold nat_text. intros H.
  apply (f_equal string_of_list_ascii) in H. rewrite string_of_list_ascii_of_string in H. simpl in H.
  assert (Nat.to_uint n = Nil) as E.
  { destruct (Nat.to_uint n); simpl in H; try discriminate. reflexivity. }
  apply (f_equal Nat.of_uint) in E. rewrite DecimalNat.Unsigned.of_to in E. subst n.
  vm_compute in H. discriminate.
Qed.
