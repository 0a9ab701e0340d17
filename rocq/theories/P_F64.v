(** What the bit pattern of a float means (IEEE 754 binary64), and the facts about the
    conversion of integers in ValueBytes.v. *)
From Coq Require Import List NArith ZArith Bool Lia Arith ZifyN ZifyNat ZifyBool.
From Verif Require Import Base Value ValueBytes.
Import ListNotations.
Local Open Scope N_scope.

(** * Specification *)
(** one bit of sign, eleven of exponent, fifty-two of fraction *)
Definition f_neg (b : N) : bool := negb (b / 2 ^ 63 =? 0).
Definition f_exp (b : N) : N := (b / 2 ^ 52) mod 2 ^ 11.
Definition f_frac (b : N) : N := b mod 2 ^ 52.
(** a number neither tiny, infinite nor NaN has the value (2^52 + fraction) * 2^(exponent - 1075);
    this is that value times 2^1075 *)
Definition f_scaled (b : N) : N := (2 ^ 52 + f_frac b) * 2 ^ f_exp b.
Definition f_normal (b : N) : Prop := b < 2 ^ 64 /\ 0 < f_exp b < 2047.
(** the pattern [b] stands for the integer [z] *)
Definition number (b : N) (z : Z) : Prop :=
  b = 0 /\ z = 0%Z \/
  f_normal b /\ f_scaled b = Z.abs_N z * 2 ^ 1075 /\ f_neg b = (z <? 0)%Z.
(** ... for a number within one part in 2^53 of [z] *)
Definition near (b : N) (z : Z) : Prop :=
  b = 0 /\ z = 0%Z \/
  f_normal b /\ f_neg b = (z <? 0)%Z /\
  (f_scaled b - Z.abs_N z * 2 ^ 1075) * 2 ^ 53 <= Z.abs_N z * 2 ^ 1075 /\ (Z.abs_N z * 2 ^ 1075 - f_scaled b) * 2 ^ 53 <= Z.abs_N z * 2 ^ 1075.

(** ... for the number nearest to [z]; if two are equally near, for the one whose fraction is even *)
Definition apart (x y : N) : N := (x - y) + (y - x).
Definition nearest (b : N) (z : Z) : Prop :=
  b = 0 /\ z = 0%Z \/
  f_normal b /\ f_neg b = (z <? 0)%Z /\
  forall c, f_normal c -> apart (f_scaled b) (Z.abs_N z * 2 ^ 1075) <= apart (f_scaled c) (Z.abs_N z * 2 ^ 1075) /\
    (apart (f_scaled c) (Z.abs_N z * 2 ^ 1075) <= apart (f_scaled b) (Z.abs_N z * 2 ^ 1075) -> f_scaled c <> f_scaled b -> N.even (f_frac b) = true).

(** * Facts *)
Lemma number_fun b b' z : number b z -> number b' z -> b = b'.
Proof.
  assert (Hz : forall c, f_normal c -> f_scaled c = Z.abs_N 0 * 2 ^ 1075 -> False).
  { intros c _ H. unfold f_scaled in H. cbn [Z.abs_N] in H. rewrite N.mul_0_l in H. apply N.eq_mul_0 in H as [H|H]; [lia|]. now apply N.pow_nonzero in H. }
  intros [[-> ->]|(N1 & S1 & G1)] [[-> Hz2]|(N2 & S2 & G2)]; try reflexivity; [exfalso; eauto|subst z; exfalso; eauto|].
  rewrite <- S2 in S1. rewrite <- G2 in G1. clear S2 G2. revert N1 N2 S1 G1. unfold f_normal, f_scaled, f_neg, f_exp, f_frac. intros [B1 E1] [B2 E2] HS HG.
  pose proof (N.div_mod' b (2 ^ 52)) as D1. pose proof (N.div_mod' b' (2 ^ 52)) as D2.
  pose proof (N.div_mod' (b / 2 ^ 52) (2 ^ 11)) as D3. pose proof (N.div_mod' (b' / 2 ^ 52) (2 ^ 11)) as D4.
  rewrite !N.div_div in D3, D4 by discriminate. change (2 ^ 52 * 2 ^ 11) with (2 ^ 63) in D3, D4.
  pose proof (N.mod_upper_bound b (2 ^ 52) ltac:(discriminate)) as F1. pose proof (N.mod_upper_bound b' (2 ^ 52) ltac:(discriminate)) as F2.
  assert (T1 : b / 2 ^ 63 < 2) by (apply N.div_lt_upper_bound; [discriminate|exact B1]). assert (T2 : b' / 2 ^ 63 < 2) by (apply N.div_lt_upper_bound; [discriminate|exact B2]).
  set (x := (b / 2 ^ 52) mod 2 ^ 11) in *. set (x' := (b' / 2 ^ 52) mod 2 ^ 11) in *. set (f := b mod 2 ^ 52) in *. set (f' := b' mod 2 ^ 52) in *.
  assert (HK : forall e e' g g', e < e' -> g < 2 ^ 52 -> (2 ^ 52 + g) * 2 ^ e <> (2 ^ 52 + g') * 2 ^ e').
  { intros e e' g g' He Hg. replace e' with (e + (e' - e - 1) + 1) by lia. rewrite !N.pow_add_r.
    pose proof (N.pow_nonzero 2 e ltac:(lia)). pose proof (N.pow_nonzero 2 (e' - e - 1) ltac:(lia)) as Hp. change (2 ^ 1) with 2. set (A := 2 ^ e) in *. set (B := 2 ^ (e' - e - 1)) in *.
    replace ((2 ^ 52 + g') * (A * B * 2)) with ((2 ^ 52 + g') * B * 2 * A) by ring. intros K. apply N.mul_cancel_r in K; [|assumption].
    assert (2 ^ 52 * 2 <= (2 ^ 52 + g') * B * 2). { apply N.mul_le_mono_r. rewrite <- (N.mul_1_r (2 ^ 52)) at 1. apply N.mul_le_mono; lia. } lia. }
  assert (x = x').
  { destruct (N.lt_trichotomy x x') as [H|[H|H]]; [exfalso; exact (HK _ _ _ _ H F1 HS)|exact H|exfalso; exact (HK _ _ _ _ H F2 (eq_sym HS))]. }
  rewrite H in HS. apply N.mul_cancel_r in HS; [|apply N.pow_nonzero; lia].
  assert (b / 2 ^ 63 = b' / 2 ^ 63) by (destruct (b / 2 ^ 63) as [|[]], (b' / 2 ^ 63) as [|[]]; cbn in HG; lia).
  rewrite D1, D2, D3, D4, H, H0. lia.
Qed.

Lemma pattern e q s : e < 1000 -> 2 ^ 52 <= q <= 2 ^ 53 -> s < 2 ->
  let b := s * 2 ^ 63 + ((e + 1023) * 2 ^ 52 + (q - 2 ^ 52)) in
  f_normal b /\ f_scaled b = q * 2 ^ (e + 1023) /\ f_neg b = negb (s =? 0).
Proof.
  intros He Hq Hs b.
  assert (K : forall e' g, e' < 2047 -> 0 < e' -> g < 2 ^ 52 -> b = s * 2 ^ 63 + (e' * 2 ^ 52 + g) ->
    f_normal b /\ f_scaled b = (2 ^ 52 + g) * 2 ^ e' /\ f_neg b = negb (s =? 0)).
  { intros e' g He' H0 Hg Hb.
    assert (Hb2 : b = (s * 2 ^ 11 + e') * 2 ^ 52 + g) by (rewrite Hb; change (2 ^ 63) with (2 ^ 11 * 2 ^ 52); lia).
    assert (Hf : f_frac b = g) by (unfold f_frac; rewrite Hb2, N.add_comm, N.mod_add by discriminate; now apply N.mod_small).
    assert (Hd : b / 2 ^ 52 = s * 2 ^ 11 + e') by (rewrite Hb2, N.add_comm, N.div_add, N.div_small by (discriminate || exact Hg); lia).
    assert (Hx : f_exp b = e') by (unfold f_exp; rewrite Hd, N.add_comm, N.mod_add by discriminate; apply N.mod_small; lia).
    assert (Hn : b / 2 ^ 63 = s).
    { change (2 ^ 63) with (2 ^ 52 * 2 ^ 11). rewrite <- N.div_div by discriminate. rewrite Hd, N.add_comm, N.div_add, N.div_small by (discriminate || lia). lia. }
    unfold f_normal, f_scaled, f_neg. rewrite Hf, Hx, Hn. repeat split; try lia. }
  destruct (N.eq_dec q (2 ^ 53)) as [->|Hne].
  - destruct (K (e + 1024) 0) as (K1 & K2 & K3); [lia|lia|reflexivity|unfold b; change (2 ^ 53) with (2 * 2 ^ 52); lia|].
    split; [exact K1|]. split; [|exact K3]. rewrite K2. replace (e + 1024) with (1 + (e + 1023)) by lia. rewrite N.pow_add_r. change (2 ^ 1) with 2. change (2 ^ 53) with (2 ^ 52 * 2). ring.
  - destruct (K (e + 1023) (q - 2 ^ 52)) as (K1 & K2 & K3); [lia|lia|change (2 ^ 53) with (2 * 2 ^ 52) in *; lia|reflexivity|].
    split; [exact K1|]. split; [|exact K3]. rewrite K2. f_equal. lia.
Qed.

Definition mantissa (m : N) : N := let e := N.log2 m in if e <=? 52 then m * 2 ^ (52 - e) else round_shift m (e - 52).
Lemma round_bounds m s : 0 < s -> let q := round_shift m s in m / 2 ^ s <= q <= m / 2 ^ s + 1 /\ q * 2 ^ s <= m + 2 ^ (s - 1) /\ m <= q * 2 ^ s + 2 ^ (s - 1) /\ (m mod 2 ^ s = 0 -> q = m / 2 ^ s).
Proof.
  intros Hs. cbv zeta. unfold round_shift. pose proof (N.div_mod' m (2 ^ s)) as Hd. pose proof (N.mod_upper_bound m (2 ^ s) ltac:(apply N.pow_nonzero; lia)) as Hm.
  pose proof (N.pow_nonzero 2 (s - 1) ltac:(lia)) as Hp.
  assert (Hh : 2 ^ s = 2 * 2 ^ (s - 1)) by (rewrite <- N.pow_succ_r'; f_equal; lia).
  set (P := 2 ^ s) in *. set (h := 2 ^ (s - 1)) in *. set (q := m / P) in *. set (r := m mod P) in *.
  destruct (N.ltb_spec h r); [repeat split; lia|]. destruct (N.eqb_spec r h); [|repeat split; lia].
  destruct (N.even q); repeat split; lia.
Qed.
Lemma mantissa_facts m : 0 < m -> m < 2 ^ 64 ->
  2 ^ 52 <= mantissa m <= 2 ^ 53 /\ N.log2 m < 64 /\
  (mantissa m * 2 ^ (N.log2 m + 1023) - m * 2 ^ 1075) * 2 ^ 53 <= m * 2 ^ 1075 /\ (m * 2 ^ 1075 - mantissa m * 2 ^ (N.log2 m + 1023)) * 2 ^ 53 <= m * 2 ^ 1075 /\
  (m <= 2 ^ 53 -> mantissa m * 2 ^ (N.log2 m + 1023) = m * 2 ^ 1075).
Proof.
  intros H0 H64. destruct (N.log2_spec m H0) as [L1 L2]. rewrite N.pow_succ_r' in L2.
  assert (He : N.log2 m < 64) by (apply N.log2_lt_pow2; assumption).
  unfold mantissa. set (e := N.log2 m) in *. destruct (N.leb_spec e 52) as [Hle|Hgt].
  - assert (Hx : m * 2 ^ (52 - e) * 2 ^ (e + 1023) = m * 2 ^ 1075).
    { rewrite <- N.mul_assoc, <- N.pow_add_r. f_equal. f_equal. lia. }
    assert (Hp : 2 ^ 52 = 2 ^ e * 2 ^ (52 - e)) by (rewrite <- N.pow_add_r; f_equal; lia).
    rewrite Hx. split; [split|]; [| |split; [exact He|repeat split; lia]].
    + rewrite Hp. now apply N.mul_le_mono_r.
    + change (2 ^ 53) with (2 * 2 ^ 52). rewrite Hp. rewrite N.mul_assoc. apply N.mul_le_mono_r. lia.
  - assert (Hpe : 2 ^ e = 2 ^ (e - 52) * 2 ^ 52) by (rewrite <- N.pow_add_r; f_equal; lia).
    pose proof (N.pow_nonzero 2 (e - 52) ltac:(lia)) as Hnz. pose proof (round_bounds m (e - 52) ltac:(lia)) as (R1 & R2 & R3 & R4).
    assert (Hq1 : 2 ^ 52 <= m / 2 ^ (e - 52)) by (apply N.div_le_lower_bound; [exact Hnz|]; rewrite <- Hpe; exact L1).
    assert (Hq2 : m / 2 ^ (e - 52) < 2 ^ 53) by (apply N.div_lt_upper_bound; [exact Hnz|]; rewrite <- N.pow_add_r; replace (e - 52 + 53) with (N.succ e) by lia; rewrite N.pow_succ_r'; exact L2).
    cbv zeta in *. set (q := round_shift m (e - 52)) in *.
    assert (H1075 : 2 ^ (e + 1023) = 2 ^ (e - 52) * 2 ^ 1075) by (rewrite <- N.pow_add_r; f_equal; lia).
    assert (Hh : 2 ^ (e - 52) = 2 * 2 ^ (e - 52 - 1)) by (rewrite <- N.pow_succ_r'; f_equal; lia).
    rewrite H1075, N.mul_assoc, <- !N.mul_sub_distr_r, <- !N.mul_assoc, !(N.mul_comm (2 ^ 1075)), !N.mul_assoc.
    assert (Hhalf : 2 ^ (e - 52 - 1) * 2 ^ 53 <= m) by (rewrite <- N.pow_add_r; replace (e - 52 - 1 + 53) with e by lia; exact L1).
    split; [lia|]. split; [exact He|]. split; [|split].
    + apply N.mul_le_mono_r. etransitivity; [|exact Hhalf]. apply N.mul_le_mono_r. lia.
    + apply N.mul_le_mono_r. etransitivity; [|exact Hhalf]. apply N.mul_le_mono_r. lia.
    + intros Hm. f_equal. assert (Hee : e = 53). { destruct (N.eq_dec e 53); [assumption|]. assert (54 <= e) by lia. assert (2 ^ 54 <= 2 ^ e) by (apply N.pow_le_mono_r; lia). change (2 ^ 54) with (2 * 2 ^ 53) in *. lia. }
      assert (m = 2 ^ 53) by (rewrite Hee in L1; lia). unfold q. rewrite Hee. subst m. reflexivity.
Qed.
Lemma f64_of_N_pos m : 0 < m -> f64_of_N m = (N.log2 m + 1023) * 2 ^ 52 + (mantissa m - 2 ^ 52).
Proof. intros H. destruct m; [lia|]. reflexivity. Qed.
Lemma of_Z_pattern z : z <> 0%Z -> f64_of_Z z = (if (z <? 0)%Z then 1 else 0) * 2 ^ 63 + ((N.log2 (Z.abs_N z) + 1023) * 2 ^ 52 + (mantissa (Z.abs_N z) - 2 ^ 52)).
Proof. intros H. destruct z as [|p|p]; [easy| |]; cbn [f64_of_Z Z.abs_N Z.ltb Z.compare]; rewrite f64_of_N_pos by reflexivity; lia. Qed.
(** the conversion is exact up to 2^53 and close to it above *)
Lemma f64_of_Z_near z : (Z.abs z < 2 ^ 64)%Z -> near (f64_of_Z z) z.
Proof.
  intros Hz. destruct (Z.eq_dec z 0) as [->|Hne]; [left; split; reflexivity|right].
  rewrite of_Z_pattern by exact Hne. assert (H0 : 0 < Z.abs_N z) by lia. assert (H1 : Z.abs_N z < 2 ^ 64) by lia.
  destruct (mantissa_facts _ H0 H1) as (M1 & M2 & M3 & M4 & _).
  destruct (pattern (N.log2 (Z.abs_N z)) (mantissa (Z.abs_N z)) (if (z <? 0)%Z then 1 else 0)) as (P1 & P2 & P3); [lia|exact M1|destruct (z <? 0)%Z; lia|].
  split; [exact P1|]. rewrite P2, P3. split; [now destruct (z <? 0)%Z|auto].
Qed.
Lemma round_best m s k : 0 < s -> let q := round_shift m s in
  apart (q * 2 ^ s) m <= apart (k * 2 ^ s) m /\ (apart (k * 2 ^ s) m <= apart (q * 2 ^ s) m -> k <> q -> N.even q = true).
Proof.
  intros Hs. cbv zeta. unfold round_shift, apart. pose proof (N.div_mod' m (2 ^ s)) as Hd. pose proof (N.mod_upper_bound m (2 ^ s) ltac:(apply N.pow_nonzero; lia)) as Hm.
  pose proof (N.pow_nonzero 2 (s - 1) ltac:(lia)) as Hp.
  assert (Hh : 2 ^ s = 2 * 2 ^ (s - 1)) by (rewrite <- N.pow_succ_r'; f_equal; lia).
  set (P := 2 ^ s) in *. set (h := 2 ^ (s - 1)) in *. set (q := m / P) in *. set (r := m mod P) in *.
  assert (K : k = q /\ k * P = q * P \/ (k * P + P <= q * P /\ k <> q /\ k <> q + 1) \/ (k = q + 1 /\ k * P = q * P + P) \/ (q * P + 2 * P <= k * P /\ k <> q /\ k <> q + 1)).
  { destruct (N.eq_dec k q) as [->|]; [now left|]. destruct (N.eq_dec k (q + 1)) as [->|]; [right; right; left; split; [reflexivity|ring]|]. destruct (N.le_gt_cases k q).
    - right. left. split; [|auto]. replace (k * P + P) with ((k + 1) * P) by ring. apply N.mul_le_mono_r. lia.
    - right. right. right. split; [|auto]. replace (q * P + 2 * P) with ((q + 2) * P) by ring. apply N.mul_le_mono_r. lia. }
  replace ((q + 1) * P) with (q * P + P) by ring. rewrite (N.mul_comm P q) in Hd.
  assert (Hev : N.even q = true -> N.even q = true) by auto. assert (Hev1 : N.even q = false -> N.even (q + 1) = true) by (intros H; now rewrite N.even_add, H).
  destruct (N.ltb_spec h r); [|destruct (N.eqb_spec r h); [destruct (N.even q) eqn:He|]]; rewrite ?N.mul_add_distr_r, ?N.mul_1_l in *;
    generalize dependent (q * P); generalize dependent (k * P); intros C A Hd K; clearbody P h q r; clear Hev;
    (split; [|intros F1 F2; try now auto; exfalso]); destruct K as [[K1 K4]|[(K1 & K4 & K5)|[[K1 K4]|(K1 & K4 & K5)]]]; try congruence; clear Hev1; lia.
Qed.
Lemma frac_even e q s : 2 ^ 52 <= q -> N.even q = true -> N.even (f_frac (s * 2 ^ 63 + ((e + 1023) * 2 ^ 52 + (q - 2 ^ 52)))) = true.
Proof.
  intros Hq Hev. unfold f_frac. replace (s * 2 ^ 63 + ((e + 1023) * 2 ^ 52 + (q - 2 ^ 52))) with ((q - 2 ^ 52) + (s * 2 ^ 11 + e + 1023) * 2 ^ 52) by (change (2 ^ 63) with (2 ^ 11 * 2 ^ 52); lia).
  rewrite N.mod_add by discriminate. apply N.even_spec in Hev as (k & Hk). apply N.even_spec. set (x := q - 2 ^ 52) in *.
  exists ((k - 2 ^ 51) - 2 ^ 51 * (x / 2 ^ 52)). pose proof (N.div_mod' x (2 ^ 52)). change (2 ^ 52) with (2 * 2 ^ 51) in *. lia.
Qed.
(** it is the nearest there is, as IEEE 754 asks for *)
Lemma f64_of_Z_nearest z : (Z.abs z < 2 ^ 64)%Z -> nearest (f64_of_Z z) z.
Proof.
  intros Hz. destruct (Z.eq_dec z 0) as [->|Hne]; [left; split; reflexivity|right].
  rewrite of_Z_pattern by exact Hne. set (m := Z.abs_N z). assert (H0 : 0 < m) by (unfold m; lia). assert (H1 : m < 2 ^ 64) by (unfold m; lia).
  destruct (mantissa_facts _ H0 H1) as (M1 & M2 & _).
  destruct (pattern (N.log2 m) (mantissa m) (if (z <? 0)%Z then 1 else 0)) as (P1 & P2 & P3); [lia|exact M1|destruct (z <? 0)%Z; lia|].
  pose proof (frac_even (N.log2 m) (mantissa m) (if (z <? 0)%Z then 1 else 0) (proj1 M1)) as Hfe.
  set (b := _ + _) in *. clearbody b. split; [exact P1|]. split; [rewrite P3; now destruct (z <? 0)%Z|]. intros c Hc. rewrite P2. clear P1 P2 P3.
  destruct (N.log2_spec m H0) as [L1 L2]. rewrite N.pow_succ_r' in L2.
  unfold mantissa in *. set (e := N.log2 m) in *. destruct (N.leb_spec e 52) as [Hle|Hgt].
  - assert (Hx : m * 2 ^ (52 - e) * 2 ^ (e + 1023) = m * 2 ^ 1075).
    { rewrite <- N.mul_assoc, <- N.pow_add_r. f_equal. f_equal. lia. }
    rewrite Hx. unfold apart. split; [lia|]. intros K1 K2. exfalso. apply K2. lia.
  - set (s := e - 52) in *. set (q := round_shift m s) in *. assert (HB : 2 ^ (e + 1023) = 2 ^ s * 2 ^ 1075) by (rewrite <- N.pow_add_r; f_equal; unfold s; lia).
    rewrite HB, N.mul_assoc. assert (HB0 : 2 ^ 1075 <> 0) by (apply N.pow_nonzero; lia). remember (2 ^ 1075) as B eqn:EB.
    assert (Hap : forall x y, apart (x * B) (y * B) = apart x y * B) by (intros x y; unfold apart; rewrite <- !N.mul_sub_distr_r; ring).
    destruct (N.le_gt_cases (e + 1023) (f_exp c)) as [Hx|Hx].
    + set (k := (2 ^ 52 + f_frac c) * 2 ^ (f_exp c - (e + 1023))). assert (Hk : f_scaled c = k * 2 ^ s * B).
      { unfold f_scaled, k. replace (f_exp c) with ((f_exp c - (e + 1023)) + (e + 1023)) at 1 by lia. rewrite N.pow_add_r, HB. ring. }
      rewrite Hk, !Hap. destruct (round_best m s k ltac:(lia)) as [R1 R2]. fold q in R1, R2. split; [now apply N.mul_le_mono_r|]. intros K1 K2. apply Hfe, R2.
      * now apply N.mul_le_mono_pos_r in K1; [|lia].
      * intros ->. now apply K2.
    + assert (Hlt : f_scaled c < 2 ^ 52 * 2 ^ s * B).
      { rewrite <- N.mul_assoc, <- HB. unfold f_scaled. pose proof (N.mod_upper_bound c (2 ^ 52) ltac:(discriminate)) as Hf. fold (f_frac c) in Hf.
        apply N.lt_le_trans with (2 ^ 52 * 2 * 2 ^ f_exp c); [apply N.mul_lt_mono_pos_r; [apply N.neq_0_lt_0, N.pow_nonzero; lia|lia]|].
        rewrite <- N.mul_assoc. apply N.mul_le_mono_l. rewrite <- N.pow_succ_r'. apply N.pow_le_mono_r; lia. }
      destruct (round_best m s (2 ^ 52) ltac:(lia)) as [R1 _]. fold q in R1.
      assert (Hlow : 2 ^ 52 * 2 ^ s <= m) by (rewrite <- N.pow_add_r; replace (52 + s) with e by (unfold s; lia); exact L1).
      assert (Hlow2 : 2 ^ 52 * 2 ^ s * B <= m * B) by now apply N.mul_le_mono_r.
      assert (Hst : apart (q * 2 ^ s * B) (m * B) < apart (f_scaled c) (m * B)).
      { rewrite Hap. apply N.le_lt_trans with (apart (2 ^ 52 * 2 ^ s) m * B); [now apply N.mul_le_mono_r|]. rewrite <- Hap. unfold apart. lia. }
      split; [lia|]. intros K. exfalso. lia.
Qed.
Lemma f64_of_Z_exact z : (Z.abs z <= 2 ^ 53)%Z -> number (f64_of_Z z) z.
Proof.
  intros Hz. destruct (Z.eq_dec z 0) as [->|Hne]; [left; split; reflexivity|right].
  rewrite of_Z_pattern by exact Hne. assert (H0 : 0 < Z.abs_N z) by lia. assert (H1 : Z.abs_N z <= 2 ^ 53) by lia. assert (H2 : Z.abs_N z < 2 ^ 64) by (eapply N.le_lt_trans; [exact H1|reflexivity]).
  destruct (mantissa_facts _ H0 H2) as (M1 & M2 & _ & _ & M3). specialize (M3 H1).
  destruct (pattern (N.log2 (Z.abs_N z)) (mantissa (Z.abs_N z)) (if (z <? 0)%Z then 1 else 0)) as (P1 & P2 & P3); [lia|exact M1|destruct (z <? 0)%Z; lia|].
  split; [exact P1|]. rewrite P2, P3. split; [exact M3|now destruct (z <? 0)%Z].
Qed.
Lemma f64_of_N_Z n : f64_of_N n = f64_of_Z (Z.of_N n).
Proof. now destruct n. Qed.
Lemma number_bound b z : number b z -> b < 2 ^ 64.
Proof. intros [[-> _]|((H & _) & _)]; [reflexivity|exact H]. Qed.
