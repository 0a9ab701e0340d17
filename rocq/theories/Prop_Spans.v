(** C64: the span buffer. *)
From Coq Require Import List Bool Arith Lia.
From Verif Require Import Spans.
Import ListNotations.

(** * Specification *)

(** the spans finished, oldest first *)
Fixpoint ended {A} (h : list (sop A)) : list A :=
  match h with [] => [] | SEnd s :: h' => s :: ended h' | _ :: h' => ended h' end.
(** the spans finished since the buffer was last emptied *)
Definition no_emptying {A} (h : list (sop A)) : Prop := forall o, In o h -> o <> STake /\ o <> SClear.
Inductive since {A} : list (sop A) -> list A -> Prop :=
| since_all h : no_emptying h -> since h (ended h)
| since_last h1 o h2 : o = STake \/ o = SClear -> no_emptying h2 -> since (h1 ++ o :: h2) (ended h2).
(** the last [n] elements *)
Definition newest {A} (n : nat) (l : list A) : list A := skipn (length l - n) l.
(** [l] is obtained from [m] by leaving out elements *)
Inductive subseq {A} : list A -> list A -> Prop :=
| sub_nil m : subseq [] m
| sub_skip l x m : subseq l m -> subseq l (x :: m)
| sub_keep x l m : subseq l m -> subseq (x :: l) (x :: m).

(** * Lemmas *)
Lemma srun_snoc {A} n (h : list (sop A)) o : srun n (h ++ [o]) = sstep (srun n h) o.
Proof. unfold srun. now rewrite fold_left_app. Qed.
Lemma ended_app {A} (h1 h2 : list (sop A)) : ended (h1 ++ h2) = ended h1 ++ ended h2.
Proof. induction h1 as [|[s| |] h IH]; cbn; [easy|now rewrite IH|easy|easy]. Qed.
Lemma max_const {A} n (h : list (sop A)) : b_max (st_buf (srun n h)) = n.
Proof.
  induction h as [|o h IH] using rev_ind; [easy|]. rewrite srun_snoc. destruct o as [s| |]; cbn; [|easy|easy].
  unfold on_end. now destruct (Nat.leb _ _).
Qed.
Lemma skipn_snoc {A} (l : list A) x : forall k, k <= length l -> skipn k (l ++ [x]) = skipn k l ++ [x].
Proof. induction l as [|y l IH]; intros [|k] H; cbn in *; try easy; try lia. apply IH. lia. Qed.
Lemma skipn_tl {A} k : forall l : list A, skipn (S k) l = tl (skipn k l).
Proof. induction k as [|k IH]; intros [|y l]; try easy. cbn [skipn]. now rewrite <- IH. Qed.
Lemma newest_length {A} n (l : list A) : length (newest n l) = Nat.min n (length l).
Proof. unfold newest. rewrite skipn_length. lia. Qed.
Lemma newest_snoc {A} n (l : list A) x : 1 <= n ->
  newest n (l ++ [x]) = (if Nat.leb n (length l) then tl (newest n l) else newest n l) ++ [x].
Proof.
  intros Hn. unfold newest. rewrite app_length. cbn [length]. destruct (Nat.leb_spec n (length l)).
  - replace (length l + 1 - n) with (S (length l - n)) by lia. rewrite skipn_snoc by lia. now rewrite skipn_tl.
  - replace (length l + 1 - n) with (length l - n) by lia. now rewrite skipn_snoc by lia.
Qed.

Lemma since_snoc {A} (h : list (sop A)) o l : since (h ++ [o]) l ->
  match o with SEnd s => exists l', since h l' /\ l = l' ++ [s] | _ => l = [] end.
Proof.
  remember (h ++ [o]) as g eqn:Hg. intros Hs. destruct Hs as [g Hn|h1 o1 h2 Ho Hn].
  - subst g. assert (Hn' : no_emptying h) by (intros x Hx; apply Hn, in_or_app; now left).
    destruct o as [s| |]; [|now destruct (Hn STake (in_elt _ _ _))|now destruct (Hn SClear (in_elt _ _ _))].
    exists (ended h). split; [now constructor|]. now rewrite ended_app.
  - destruct h2 as [|x h2] using rev_ind.
    + apply (app_inj_tail h1 h) in Hg as [_ ->]. now destruct Ho as [->| ->].
    + clear IHh2. rewrite app_comm_cons, app_assoc in Hg. apply app_inj_tail in Hg as [<- ->].
      assert (Hn' : no_emptying h2) by (intros y Hy; apply Hn, in_or_app; now left).
      destruct o as [s| |]; [|now destruct (Hn STake (in_elt _ _ _))|now destruct (Hn SClear (in_elt _ _ _))].
      exists (ended h2). split; [now constructor|]. now rewrite ended_app.
Qed.
Lemma since_exists {A} (h : list (sop A)) : exists l, since h l.
Proof.
  induction h as [|o h [l IH]] using rev_ind; [exists []; now constructor|].
  destruct o as [s| |].
  - exists (l ++ [s]). destruct IH as [h Hn|h1 o1 h2 Ho Hn].
    + replace (ended h ++ [s]) with (ended (h ++ [SEnd s])) by (now rewrite ended_app). constructor. intros o Ho. apply in_app_or in Ho as [Ho|[<-|[]]]; [now apply Hn|easy].
    + replace (ended h2 ++ [s]) with (ended (h2 ++ [SEnd s])) by (now rewrite ended_app). rewrite <- app_assoc. cbn. constructor; [easy|]. intros o Hi. apply in_app_or in Hi as [Hi|[<-|[]]]; [now apply Hn|easy].
  - exists []. apply (since_last h STake []); [now left|easy].
  - exists []. apply (since_last h SClear []); [now right|easy].
Qed.

Lemma buffer_inv {A} n (h : list (sop A)) l : 1 <= n -> since h l ->
  b_queue (st_buf (srun n h)) = newest n l /\ b_logged (st_buf (srun n h)) = Nat.ltb n (length l).
Proof.
  intros Hn. revert l. induction h as [|o h IH] using rev_ind; intros l Hs.
  - assert (l = []) as -> by (inversion Hs as [? ?|h1 o h2 ? ? Hh]; [easy|now destruct h1]). cbn. split; [easy|]. now destruct n.
  - apply since_snoc in Hs. rewrite srun_snoc. destruct o as [s| |].
    + destruct Hs as (l' & Hs & ->). destruct (IH l' Hs) as [Hq Hl]. cbn [sstep]. unfold on_end.
      rewrite max_const, Hq, newest_length, Hl, newest_snoc, app_length by easy. cbn [length].
      destruct (Nat.leb_spec n (Nat.min n (length l'))), (Nat.leb_spec n (length l')); try lia; cbn [st_buf b_queue b_logged]; (split; [easy|]).
      * symmetry. apply Nat.ltb_lt. lia.
      * destruct (Nat.ltb_spec n (length l')), (Nat.ltb_spec n (length l' + 1)); try lia; easy.
    + subst l. cbn. split; [easy|now destruct n].
    + subst l. cbn. split; [easy|now destruct n].
Qed.

Lemma subseq_refl {A} (l : list A) : subseq l l.
Proof. induction l; [constructor|now apply sub_keep]. Qed.
Lemma subseq_app {A} (l1 l2 m1 m2 : list A) : subseq l1 m1 -> subseq l2 m2 -> subseq (l1 ++ l2) (m1 ++ m2).
Proof.
  induction 1 as [m|l x m H IH|x l m H IH]; cbn; intros H2; [|apply sub_skip; auto|apply sub_keep; auto].
  induction m as [|y m IH]; cbn; [exact H2|now apply sub_skip].
Qed.
Lemma subseq_trans {A} (a b c : list A) : subseq a b -> subseq b c -> subseq a c.
Proof.
  intros H1 H2. revert a H1. induction H2 as [m|l x m H IH|x l m H IH]; intros a H1.
  - inversion H1. constructor.
  - apply sub_skip. auto.
  - inversion H1; subst; [constructor|apply sub_skip; auto|apply sub_keep; auto].
Qed.
Lemma subseq_tl {A} (l1 l : list A) : subseq (l1 ++ tl l) (l1 ++ l).
Proof. apply subseq_app; [apply subseq_refl|]. destruct l; cbn; [constructor|apply sub_skip, subseq_refl]. Qed.
Lemma subseq_In {A} (l m : list A) x : subseq l m -> In x l -> In x m.
Proof. induction 1 as [m|l y m H IH|y l m H IH]; cbn; [easy|auto|intros [->|Hx]; auto]. Qed.

(** * Theorems *)

(** C64: the buffer holds the newest of the spans finished since it was emptied, in order,
    and no more than its capacity *)
Theorem C64_buffer_keeps_the_newest {A} n (h : list (sop A)) l : 1 <= n -> since h l ->
  b_queue (st_buf (srun n h)) = newest n l /\ length (b_queue (st_buf (srun n h))) <= n.
Proof. intros Hn Hs. destruct (buffer_inv n h l Hn Hs) as [-> _]. split; [easy|]. rewrite newest_length. lia. Qed.

(** C64: an export gets exactly these and leaves nothing behind *)
Theorem C64_export_takes_all {A} n (h : list (sop A)) l : 1 <= n -> since h l ->
  st_out (srun n (h ++ [STake])) = st_out (srun n h) ++ [newest n l] /\ b_queue (st_buf (srun n (h ++ [STake]))) = [].
Proof. intros Hn Hs. rewrite srun_snoc. cbn. destruct (buffer_inv n h l Hn Hs) as [-> _]. easy. Qed.

(** C64: nothing is exported twice or out of order, for any capacity: all exports in turn,
    followed by what waits, are the finished spans with some left out *)
Theorem C64_no_span_exported_twice {A} n (h : list (sop A)) :
  subseq (concat (st_out (srun n h)) ++ b_queue (st_buf (srun n h))) (ended h).
Proof.
  induction h as [|o h IH] using rev_ind; [constructor|]. rewrite srun_snoc, ended_app. destruct o as [s| |]; cbn [sstep ended].
  - unfold on_end. assert (Hx : subseq ((concat (st_out (srun n h)) ++ b_queue (st_buf (srun n h))) ++ [s]) (ended h ++ [s])) by (apply subseq_app; [exact IH|apply subseq_refl]).
    destruct (Nat.leb _ _); cbn [st_out st_buf b_queue]; rewrite app_assoc; [|exact Hx].
    apply subseq_app; [|apply subseq_refl]. eapply subseq_trans; [apply subseq_tl|exact IH].
  - cbn. rewrite concat_app. cbn. rewrite !app_nil_r. exact IH.
  - cbn. rewrite !app_nil_r. eapply subseq_trans; [|exact IH]. rewrite <- (app_nil_r (concat _)) at 1. apply subseq_app; [apply subseq_refl|constructor].
Qed.
Theorem C64_distinct_spans_exported_once {A} n (h : list (sop A)) : NoDup (ended h) -> NoDup (concat (st_out (srun n h))).
Proof.
  intros Hd. pose proof (C64_no_span_exported_twice n h) as Hs.
  assert (Hsub : forall l m : list A, subseq l m -> NoDup m -> NoDup l).
  { intros l m H. induction H as [m|l x m H IH|x l m H IH]; intros Hm; [constructor|inversion Hm; auto|].
    inversion Hm as [|? ? Hx Hm']; subst. constructor; [|auto]. intros Hi. apply Hx. now apply (subseq_In l m). }
  apply Hsub in Hs; [|exact Hd]. clear - Hs. induction (concat (st_out (srun n h))) as [|x l IH]; [constructor|].
  cbn in Hs. inversion Hs as [|? ? Hx Hl]; subst. constructor; [intros Hi; apply Hx, in_or_app; now left|auto].
Qed.

(** C64: the loss of spans is reported when it begins, once until the buffer is emptied *)
Theorem C64_loss_is_reported_once {A} n (h : list (sop A)) l s : 1 <= n -> since h l ->
  st_warn (srun n (h ++ [SEnd s])) = st_warn (srun n h) ++ [Nat.eqb (length l) n].
Proof.
  intros Hn Hs. rewrite srun_snoc. cbn [sstep]. unfold on_end. destruct (buffer_inv n h l Hn Hs) as [Hq Hl]. rewrite max_const, Hq, newest_length, Hl.
  destruct (Nat.leb_spec n (Nat.min n (length l))); cbn [st_warn]; f_equal; f_equal.
  - destruct (Nat.ltb_spec n (length l)), (Nat.eqb_spec (length l) n); try lia; easy.
  - symmetry. apply Nat.eqb_neq. lia.
Qed.

(** A capacity of 0 (not used by the filter) acts like 1: the bound fails. *)
Theorem C64_capacity_zero_is_one {A} (h : list (sop A)) :
  b_queue (st_buf (srun 0 h)) = b_queue (st_buf (srun 1 h)) /\ st_out (srun 0 h) = st_out (srun 1 h).
Proof.
  assert (Hb : forall h : list (sop A), length (b_queue (st_buf (srun 1 h))) <= 1).
  { intros h0. destruct (since_exists h0) as [l Hl]. now apply (C64_buffer_keeps_the_newest 1 h0 l). }
  induction h as [|o h [IH1 IH2]] using rev_ind; [easy|]. rewrite !srun_snoc. destruct o as [s| |]; cbn [sstep].
  - unfold on_end. rewrite !max_const, IH1. specialize (Hb h). destruct (b_queue (st_buf (srun 1 h))) as [|x [|y q]]; cbn in *; try lia; easy.
  - cbn. now rewrite IH1, IH2.
  - cbn. easy.
Qed.

Example C64_ex : let h := [SEnd 1; SEnd 2; STake; SEnd 3; SEnd 4; SEnd 5; SEnd 6] in
  since h [3; 4; 5; 6] /\ b_queue (st_buf (srun 2 h)) = [5; 6] /\ st_out (srun 2 h) = [[1; 2]] /\
  st_warn (srun 2 h) = [false; false; false; false; false; true; false].
Proof.
  split; [|easy]. apply (since_last [SEnd 1; SEnd 2] STake [SEnd 3; SEnd 4; SEnd 5; SEnd 6]); [now left|].
  intros o Ho. cbn in Ho. repeat destruct Ho as [<-|Ho]; easy.
Qed.

Print Assumptions C64_buffer_keeps_the_newest.
Print Assumptions C64_export_takes_all.
Print Assumptions C64_no_span_exported_twice.
Print Assumptions C64_distinct_spans_exported_once.
Print Assumptions C64_loss_is_reported_once.
Print Assumptions C64_capacity_zero_is_one.
