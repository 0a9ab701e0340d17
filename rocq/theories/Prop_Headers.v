(** C22, C23 (header map part), C68. *)
From Coq Require Import String List NArith ZArith Bool.
From Verif Require Import Base Value Headers.
Import ListNotations.
Open Scope list_scope.

(** ** Specification *)
(** All values of a name, in order; the entries of other names. *)
Definition values_of (k : text) (h : list (text * text)) : list text :=
  flat_map (fun kv => if text_eq_dec (fst kv) k then [snd kv] else []) h.
Definition others (k : text) (h : list (text * text)) : list (text * text) :=
  flat_map (fun kv => if text_eq_dec (fst kv) k then [] else [kv]) h.
(** The last configured entry of every name, in order of these last entries *)
Fixpoint last_entries (l : list (text * text)) : list (text * text) :=
  match l with
  | [] => []
  | kv :: l' => if in_dec text_eq_dec (fst kv) (map fst l') then last_entries l' else kv :: last_entries l'
  end.
(** The entries whose name is not configured *)
Definition untouched (names : list text) (h : list (text * text)) : list (text * text) :=
  flat_map (fun kv => if in_dec text_eq_dec (fst kv) names then [] else [kv]) h.

(** ** Lemmas *)
Lemma filter_others k h : filter (fun kv => negb (text_eqb (fst kv) k)) h = others k h.
Proof.
  unfold others. induction h as [|[a b] h IH]; simpl; [reflexivity|].
  destruct (text_eq_dec a k) as [->|Hn].
  - rewrite text_eqb_refl. simpl. exact IH.
  - apply text_eqb_neq in Hn. rewrite Hn. simpl. now rewrite IH.
Qed.
Lemma h_set_others k v h : h_set k v h = others k h ++ [(k, v)].
Proof. unfold h_set. now rewrite filter_others. Qed.
Lemma values_of_app k a b : values_of k (a ++ b) = values_of k a ++ values_of k b.
Proof. apply flat_map_app. Qed.
Lemma others_app k a b : others k (a ++ b) = others k a ++ others k b.
Proof. apply flat_map_app. Qed.
Lemma untouched_app n a b : untouched n (a ++ b) = untouched n a ++ untouched n b.
Proof. apply flat_map_app. Qed.
Lemma values_others_same k h : values_of k (others k h) = [].
Proof.
  unfold values_of, others. induction h as [|[a b] h IH]; simpl; [reflexivity|].
  destruct (text_eq_dec a k); simpl; [exact IH|]. destruct (text_eq_dec a k); simpl; [easy|exact IH].
Qed.
Lemma values_others_other k k' h : k' <> k -> values_of k' (others k h) = values_of k' h.
Proof.
  intros Hn. unfold values_of, others. induction h as [|[a b] h IH]; simpl; [reflexivity|].
  destruct (text_eq_dec a k) as [->|Ha]; simpl.
  - destruct (text_eq_dec k k') as [->|]; [easy|exact IH].
  - now rewrite IH.
Qed.
Lemma others_twice k h : others k (others k h) = others k h.
Proof.
  unfold others. induction h as [|[a b] h IH]; simpl; [reflexivity|].
  destruct (text_eq_dec a k); simpl; [exact IH|]. destruct (text_eq_dec a k); simpl; [easy|now rewrite IH].
Qed.
Lemma others_single k v : others k [(k, v)] = [].
Proof. unfold others. simpl. now destruct (text_eq_dec k k). Qed.
Lemma values_single k v : values_of k [(k, v)] = [v].
Proof. unfold values_of. simpl. now destruct (text_eq_dec k k). Qed.
Lemma untouched_nil h : untouched [] h = h.
Proof. unfold untouched. induction h as [|a h IH]; [reflexivity|]. simpl. f_equal. exact IH. Qed.
Lemma untouched_others k names h : untouched names (others k h) = untouched (k :: names) h.
Proof.
  unfold untouched, others. induction h as [|[a b] h IH]; simpl; [reflexivity|].
  destruct (text_eq_dec a k) as [->|Ha]; simpl.
  - destruct (text_eq_dec k k) as [_|]; [|easy]. exact IH.
  - destruct (text_eq_dec k a) as [->|]; [easy|]. destruct (in_dec text_eq_dec a names); simpl; [exact IH|now f_equal].
Qed.
Lemma h_set_all_spec pairs h :
  h_set_all pairs h = untouched (map fst pairs) h ++ last_entries pairs.
Proof.
  unfold h_set_all. revert h. induction pairs as [|[k v] pairs IH]; intro h; simpl.
  - now rewrite untouched_nil, app_nil_r.
  - rewrite IH, h_set_others, untouched_app, untouched_others, <- app_assoc. f_equal.
    unfold untouched. simpl. now destruct (in_dec text_eq_dec k (map fst pairs)).
Qed.

(** ** C22 *)
(** The model functions that read headers, in terms of the specification *)
Lemma h_get_all_spec k h : h_get_all k h = values_of k h.
Proof.
  unfold h_get_all, values_of. induction h as [|[a b] h IH]; simpl; [reflexivity|].
  destruct (text_eq_dec a k) as [->|Hn].
  - rewrite text_eqb_refl. simpl. now rewrite IH.
  - apply text_eqb_neq in Hn. now rewrite Hn.
Qed.
Lemma h_get_spec k h : h_get k h = hd_error (values_of k h).
Proof.
  unfold h_get, values_of. induction h as [|[a b] h IH]; simpl; [reflexivity|].
  destruct (text_eq_dec a k) as [->|Hn].
  - now rewrite text_eqb_refl.
  - apply text_eqb_neq in Hn. now rewrite Hn.
Qed.

Theorem C22_set_replaces_exactly_that_header : forall k v w h,
  h_get_all k (h_set k v h) = [v] /\ h_get k (h_set k v h) = Some v /\
  values_of k (h_set k v h) = [v] /\ others k (h_set k v h) = others k h /\
  (forall k', k' <> k -> h_get_all k' (h_set k v h) = values_of k' h) /\
  h_set k w (h_set k v h) = h_set k w h.
Proof.
  intros k v w h.
  assert (V : values_of k (h_set k v h) = [v])
    by now rewrite h_set_others, values_of_app, values_others_same, values_single.
  assert (O : others k (h_set k v h) = others k h)
    by now rewrite h_set_others, others_app, others_twice, others_single, app_nil_r.
  repeat split.
  - now rewrite h_get_all_spec.
  - now rewrite h_get_spec, V.
  - exact V.
  - exact O.
  - intros k' Hk. rewrite h_get_all_spec, h_set_others, values_of_app, values_others_other by exact Hk.
    unfold values_of at 2. simpl. destruct (text_eq_dec k k') as [->|]; [easy|]. now rewrite app_nil_r.
  - rewrite (h_set_others k w), O. now rewrite (h_set_others k w h).
Qed.
Print Assumptions C22_set_replaces_exactly_that_header.

Example C22_case :
  let h := [(tx "a", tx "1"); (tx "b", tx "2"); (tx "a", tx "3")] in
  h_set (tx "a") (tx "9") h = [(tx "b", tx "2"); (tx "a", tx "9")].
Proof. reflexivity. Qed.

(** Removing and appending *)
Theorem C22_remove_removes_exactly_that_header : forall k h,
  h_get_all k (h_remove k h) = [] /\ h_get k (h_remove k h) = None /\ others k (h_remove k h) = others k h.
Proof.
  intros k h.
  assert (H : h_remove k h = others k h) by apply filter_others.
  rewrite h_get_all_spec, h_get_spec, H, values_others_same, others_twice. now repeat split.
Qed.
Print Assumptions C22_remove_removes_exactly_that_header.

(** HTTP header names are case-insensitive; the map's names are not. *)
Theorem C22_case_insensitive_refuted :
  exists k v h, h_get_all (tx "x-user") (h_set k v h) = [tx "client"] /\ k = tx "X-User" /\ v = tx "trusted".
Proof. exists (tx "X-User"), (tx "trusted"), [(tx "x-user", tx "client")]. now vm_compute. Qed.

(** ** C23: the map written by a headers action (see Prop_Tasks.v for the action itself) *)
Theorem C23_set_all_preserves_unrelated : forall pairs h,
  h_set_all pairs h = untouched (map fst pairs) h ++ last_entries pairs.
Proof. exact h_set_all_spec. Qed.
Print Assumptions C23_set_all_preserves_unrelated.

Example C23_case :
  h_set_all [(tx "a", tx "7"); (tx "c", tx "8"); (tx "a", tx "9")]
            [(tx "a", tx "1"); (tx "b", tx "2"); (tx "a", tx "3")]
  = [(tx "b", tx "2"); (tx "c", tx "8"); (tx "a", tx "9")].
Proof. reflexivity. Qed.

(** ** C68 *)
(** A value that denotes one header: the three documented forms *)
Inductive denotes_header : value -> text -> text -> Prop :=
| dh_pair k v : denotes_header (VList [VString k; VString v]) k v
| dh_struct n fs k v : tget (tx "key") fs = Some (VString k) -> tget (tx "value") fs = Some (VString v) ->
    denotes_header (VStruct n fs) k v
| dh_nested n fs m hs k v :
    (forall k' v', ~ (tget (tx "key") fs = Some (VString k') /\ tget (tx "value") fs = Some (VString v'))) ->
    tget (tx "header") fs = Some (VStruct m hs) ->
    tget (tx "key") hs = Some (VString k) -> tget (tx "value") hs = Some (VString v) ->
    denotes_header (VStruct n fs) k v.

(** [converted items pairs]: the elements that denote a header give, in order, exactly
    these pairs; the others give nothing *)
Inductive converted : list value -> list (text * text) -> Prop :=
| cv_nil : converted [] []
| cv_take x k v l ps : denotes_header x k v -> converted l ps -> converted (x :: l) ((k, v) :: ps)
| cv_skip x l ps : (forall k v, ~ denotes_header x k v) -> converted l ps -> converted (x :: l) ps.

Lemma str_fields_some fs k v :
  str_fields fs = Some (k, v) <-> tget (tx "key") fs = Some (VString k) /\ tget (tx "value") fs = Some (VString v).
Proof.
  unfold str_fields. split.
  - destruct (tget (tx "key") fs) as [[]|]; try discriminate.
    destruct (tget (tx "value") fs) as [[]|]; try discriminate. now intros [= <- <-].
  - now intros [-> ->].
Qed.
Lemma header_pair_spec x k v : header_pair x = Some (k, v) <-> denotes_header x k v.
Proof.
  split.
  - destruct x as [| | | | | | |l| |n fs| |]; try discriminate.
    + simpl. destruct l as [|[] [|[] [|]]]; try discriminate. intros [= <- <-]. constructor.
    + cbn [header_pair]. destruct (str_fields fs) as [[k' v']|] eqn:H.
      * intros [= <- <-]. apply str_fields_some in H as [H1 H2]. now constructor.
      * destruct (tget (tx "header") fs) as [[]|] eqn:H2; try discriminate. intros H3.
        apply str_fields_some in H3 as [H3 H4]. eapply dh_nested; eauto.
        intros k' v' H5. apply str_fields_some in H5. congruence.
  - intros H; destruct H as [k v|n fs k v H1 H2|n fs m hs k v H H1 H2 H3].
    + reflexivity.
    + cbn [header_pair]. now rewrite (proj2 (str_fields_some fs k v) (conj H1 H2)).
    + cbn [header_pair]. destruct (str_fields fs) as [[k' v']|] eqn:H5.
      * apply str_fields_some in H5. now apply H in H5.
      * rewrite H1. now apply str_fields_some.
Qed.
Lemma header_pairs_acc l : forall acc,
  fold_left (fun acc item => match header_pair item with Some kv => acc ++ [kv] | None => acc end) l acc
  = acc ++ header_pairs (VList l).
Proof.
  assert (A : forall acc, fold_left (fun acc item => match header_pair item with Some kv => acc ++ [kv] | None => acc end) l acc
     = acc ++ fold_left (fun acc item => match header_pair item with Some kv => acc ++ [kv] | None => acc end) l []).
  { induction l as [|x l IH]; intros acc; simpl; [now rewrite app_nil_r|].
    destruct (header_pair x) as [kv|]; [|apply IH]. rewrite IH, (IH [kv]), app_assoc. reflexivity. }
  exact A.
Qed.
Lemma header_pairs_cons x l :
  header_pairs (VList (x :: l)) = (match header_pair x with Some kv => [kv] | None => [] end) ++ header_pairs (VList l).
Proof. unfold header_pairs at 1. simpl. rewrite header_pairs_acc. now destruct (header_pair x). Qed.

Theorem C68_header_lists_converted_faithfully : forall v,
  match v with
  | VList items => converted items (header_pairs v)
  | _ => header_pairs v = []
  end.
Proof.
  intros v. destruct v; try reflexivity.
  induction l as [|x l IH]; [constructor|]. rewrite header_pairs_cons.
  destruct (header_pair x) as [[k w]|] eqn:H.
  - apply header_pair_spec in H. now constructor.
  - simpl. constructor; [|exact IH]. intros k w Hd. apply header_pair_spec in Hd. congruence.
Qed.
Print Assumptions C68_header_lists_converted_faithfully.

(** and this determines the result *)
Theorem C68_result_determined : forall items a b, converted items a -> converted items b -> a = b.
Proof.
  intros items a b Ha. revert b.
  induction Ha as [|x k v l ps Hd Ha IH|x l ps Hn Ha IH]; intros b Hb; inversion Hb; subst.
  - reflexivity.
  - apply header_pair_spec in Hd. match goal with H : denotes_header x _ _ |- _ => apply header_pair_spec in H end.
    f_equal; [congruence|]. now apply IH.
  - match goal with H : forall _ _, ~ _ |- _ => now apply H in Hd end.
  - match goal with H : denotes_header x _ _ |- _ => now apply Hn in H end.
  - now apply IH.
Qed.
Print Assumptions C68_result_determined.

Example C68_case :
  header_pairs (VList [VList [VString (tx "a"); VString (tx "1")]; VInt 3%Z; VList [VString (tx "b")];
                       VStruct (tx "H") [(tx "header", VStruct (tx "V") [(tx "key", VString (tx "c")); (tx "value", VString (tx "2"))])]])
  = [(tx "a", tx "1"); (tx "c", tx "2")].
Proof. reflexivity. Qed.
