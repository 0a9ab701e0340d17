(** The dependencies computed for an action set. *)
From Coq Require Import String List NArith Bool Lia Arith Relation_Operators.
From Verif Require Import Base Ctx Config Legacy Blueprint.
Import ListNotations.
Open Scope list_scope.

Definition seq_at (l : list action_cfg) (k : nat) : Prop := exists t, nth_error l k = Some (CTyped t) /\ ta_seq t = true.
Definition quiet_between (l : list action_cfg) (j i : nat) : Prop := forall k, j < k < i -> ~ seq_at l k.

(** the actions named in the dependencies of action [i] *)
Definition direct (l : list action_cfg) (i j : nat) : Prop :=
  j < i /\
  match nth_error l i with
  | Some (CLegacy _) => S j = i
  | Some (CTyped t) => if ta_seq t then quiet_between l j i else seq_at l j /\ quiet_between l j i
  | None => False
  end.

Lemma seq_at_app l l' k : k < length l -> (seq_at (l ++ l') k <-> seq_at l k).
Proof. intros H. unfold seq_at. now rewrite nth_error_app1. Qed.
Lemma quiet_app l l' j i : i <= length l -> (quiet_between (l ++ l') j i <-> quiet_between l j i).
Proof. intros H. unfold quiet_between. split; intros Q k Hk; specialize (Q k Hk); rewrite seq_at_app in * by lia; exact Q. Qed.

Record inv (pre : list action_cfg) (fence pend : list text) : Prop := {
  iv_fence : forall x, In x fence <-> exists j, x = nat_text j /\ j < length pre /\ seq_at pre j /\ quiet_between pre j (length pre);
  iv_pend : forall x, In x pend <-> exists j, x = nat_text j /\ j < length pre /\ ~ seq_at pre j /\ quiet_between pre j (length pre) }.

Lemma seq_dec l k : seq_at l k \/ ~ seq_at l k.
Proof.
  unfold seq_at. destruct (nth_error l k) as [[t|t]|]; [|right; intros (x & H & _); discriminate..].
  destruct (ta_seq t) eqn:H; [left; eauto|right]. intros (x & Hx & H'). congruence.
Qed.

Lemma inv_other pre fence pend a : inv pre fence pend -> (forall t, a = CTyped t -> ta_seq t = false) ->
  inv (pre ++ [a]) fence (pend ++ [nat_text (length pre)]).
Proof.
  intros [I1 I2] Ha.
  assert (Hns : ~ seq_at (pre ++ [a]) (length pre)).
  { unfold seq_at. rewrite nth_error_app2, Nat.sub_diag by lia. simpl. intros (t & [= ->] & H). rewrite Ha in H; [discriminate|reflexivity]. }
  assert (Hlen : length (pre ++ [a]) = S (length pre)) by (rewrite app_length; simpl; lia).
  assert (Hq : forall j, j < length pre -> (quiet_between (pre ++ [a]) j (S (length pre)) <-> quiet_between pre j (length pre))).
  { intros j Hj. split; intros Q k Hk.
    - rewrite <- (seq_at_app pre [a]) by lia. apply Q. lia.
    - destruct (Nat.eq_dec k (length pre)) as [->|]; [exact Hns|]. rewrite seq_at_app by lia. apply Q. lia. }
  constructor; intros x; rewrite Hlen.
  - rewrite I1. split; intros (j & -> & Hj & H1 & H2).
    + exists j. rewrite seq_at_app by lia. rewrite Hq by exact Hj. repeat split; auto.
    + assert (Hj' : j < length pre). { destruct (Nat.eq_dec j (length pre)) as [->|]; [now apply Hns in H1|lia]. }
      exists j. rewrite seq_at_app in H1 by lia. rewrite Hq in H2 by exact Hj'. repeat split; auto.
  - rewrite in_app_iff, I2. split.
    + intros [(j & -> & Hj & H1 & H2)|[<-|[]]].
      * exists j. rewrite seq_at_app by lia. rewrite Hq by exact Hj. repeat split; auto.
      * exists (length pre). repeat split; auto. intros k Hk. lia.
    + intros (j & -> & Hj & H1 & H2). destruct (Nat.eq_dec j (length pre)) as [->|]; [right; now left|]. left.
      exists j. rewrite seq_at_app in H1 by lia. rewrite Hq in H2 by lia. repeat split; auto. lia.
Qed.
Lemma inv_seq pre fence pend t : inv pre fence pend -> ta_seq t = true -> inv (pre ++ [CTyped t]) [nat_text (length pre)] [].
Proof.
  intros _ Ht.
  assert (Hs : seq_at (pre ++ [CTyped t]) (length pre)).
  { unfold seq_at. rewrite nth_error_app2, Nat.sub_diag by lia. simpl. eauto. }
  assert (Hlen : length (pre ++ [CTyped t]) = S (length pre)) by (rewrite app_length; simpl; lia).
  constructor; intros x; rewrite Hlen.
  - split.
    + intros [<-|[]]. exists (length pre). repeat split; auto. intros k Hk. lia.
    + intros (j & -> & Hj & H1 & H2). left. destruct (Nat.eq_dec j (length pre)) as [->|]; [reflexivity|]. exfalso. apply (H2 (length pre)); [lia|exact Hs].
  - split; [easy|]. intros (j & -> & Hj & H1 & H2). destruct (Nat.eq_dec j (length pre)) as [->|]; [now apply H1|]. apply (H2 (length pre)); [lia|exact Hs].
Qed.

Lemma deps_from_spec l : forall pre fence pend, inv pre fence pend ->
  forall n d, nth_error (deps_from (length pre) fence pend l) n = Some d ->
  forall x, In x d <-> exists j, x = nat_text j /\ direct (pre ++ l) (length pre + n) j.
Proof.
  induction l as [|a l IH]; intros pre fence pend HI n d; [destruct n; discriminate|].
  assert (Hnth : nth_error (pre ++ a :: l) (length pre) = Some a) by (rewrite nth_error_app2, Nat.sub_diag by lia; reflexivity).
  assert (Happ : pre ++ a :: l = (pre ++ [a]) ++ l) by (rewrite <- app_assoc; reflexivity).
  assert (Hlen : S (length pre) = length (pre ++ [a])) by (rewrite app_length; simpl; lia).
  assert (Hqp : forall j, quiet_between (pre ++ a :: l) j (length pre) <-> quiet_between pre j (length pre)) by (intros; apply quiet_app; lia).
  destruct a as [t|la]; cbn [deps_from].
  - destruct (ta_seq t) eqn:Ht; destruct n as [|n]; cbn [nth_error].
    + intros [= <-] x. rewrite Nat.add_0_r. unfold direct. rewrite Hnth, Ht. rewrite in_app_iff, (iv_fence _ _ _ HI), (iv_pend _ _ _ HI). split.
      * intros [(j & -> & Hj & H1 & H2)|(j & -> & Hj & H1 & H2)]; exists j; (split; [reflexivity|]); (split; [exact Hj|]); now rewrite Hqp.
      * intros (j & -> & Hj & H2). rewrite Hqp in H2. destruct (seq_dec pre j) as [H|H]; [left|right]; exists j; repeat split; auto.
    + rewrite Hlen, Happ. replace (length pre + S n) with (length (pre ++ [CTyped t]) + n) by lia. apply IH. now apply (inv_seq pre fence pend).
    + intros [= <-] x. rewrite Nat.add_0_r. unfold direct. rewrite Hnth, Ht. rewrite (iv_fence _ _ _ HI). split; intros (j & -> & Hj & H); exists j; (split; [reflexivity|]); (split; [exact Hj|]).
      * rewrite Hqp, seq_at_app by exact Hj. exact H.
      * rewrite Hqp, seq_at_app in H by exact Hj. exact H.
    + rewrite Hlen, Happ. replace (length pre + S n) with (length (pre ++ [CTyped t]) + n) by lia. apply IH. apply inv_other; [exact HI|]. now intros t' [= <-].
  - destruct n as [|n]; cbn [nth_error].
    + intros [= <-] x. rewrite Nat.add_0_r. unfold direct. rewrite Hnth. destruct (length pre) as [|j] eqn:Hl.
      * split; [easy|]. intros (j & _ & Hj & _). lia.
      * split.
        -- intros [<-|[]]. exists j. repeat split; lia.
        -- intros (k & -> & _ & [= ->]). now left.
    + rewrite Hlen, Happ. replace (length pre + S n) with (length (pre ++ [CLegacy la]) + n) by lia. apply IH. apply inv_other; [exact HI|]. discriminate.
Qed.
Lemma deps_spec l i d : nth_error (compute_dependencies l) i = Some d ->
  forall x, In x d <-> exists j, x = nat_text j /\ direct l i j.
Proof.
  intros H. assert (HI : inv [] [] []).
  { constructor; intros x; split; try easy; intros (j & _ & Hj & _); simpl in Hj; lia. }
  exact (deps_from_spec l [] [] [] HI i d H).
Qed.
Lemma deps_from_length l : forall i f p, length (deps_from i f p l) = length l.
Proof. induction l as [|[t|t] l IH]; intros i f p; simpl; auto. destruct (ta_seq t); simpl; auto. Qed.
