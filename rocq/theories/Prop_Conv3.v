(** C85-C87: reading replies, and sending on what was read. *)
From Coq Require Import String List NArith ZArith Bool Lia.
From Verif Require Import Base Value Conv Prop_Conv Prop_Conv2.
Import ListNotations.
Open Scope list_scope.

(** Induction over messages *)
Section PInd.
  Variable P : pval -> Prop.
  Hypothesis HS : forall w, (forall n l, w <> PMsg n l) -> (forall l, w <> PList l) -> (forall l, w <> PMap l) -> P w.
  Hypothesis HM : forall n l, Forall (fun kv => P (snd kv)) l -> P (PMsg n l).
  Hypothesis HL : forall l, Forall P l -> P (PList l).
  Hypothesis HP : forall l, Forall (fun kv => P (snd kv)) l -> P (PMap l).
  Fixpoint pval_ind' (w : pval) : P w :=
    match w with
    | PMsg n l => HM n l ((fix go l : Forall (fun kv => P (snd kv)) l := match l with [] => Forall_nil _ | x :: l' => Forall_cons x (pval_ind' (snd x)) (go l') end) l)
    | PList l => HL l ((fix go l : Forall P l := match l with [] => Forall_nil _ | x :: l' => Forall_cons x (pval_ind' x) (go l') end) l)
    | PMap l => HP l ((fix go l : Forall (fun kv => P (snd kv)) l := match l with [] => Forall_nil _ | x :: l' => Forall_cons x (pval_ind' (snd x)) (go l') end) l)
    | PBool b => HS (PBool b) ltac:(discriminate) ltac:(discriminate) ltac:(discriminate)
    | PI32 b => HS (PI32 b) ltac:(discriminate) ltac:(discriminate) ltac:(discriminate)
    | PI64 b => HS (PI64 b) ltac:(discriminate) ltac:(discriminate) ltac:(discriminate)
    | PU32 b => HS (PU32 b) ltac:(discriminate) ltac:(discriminate) ltac:(discriminate)
    | PU64 b => HS (PU64 b) ltac:(discriminate) ltac:(discriminate) ltac:(discriminate)
    | PF32 b => HS (PF32 b) ltac:(discriminate) ltac:(discriminate) ltac:(discriminate)
    | PF64 b => HS (PF64 b) ltac:(discriminate) ltac:(discriminate) ltac:(discriminate)
    | PStr b => HS (PStr b) ltac:(discriminate) ltac:(discriminate) ltac:(discriminate)
    | PBytes b => HS (PBytes b) ltac:(discriminate) ltac:(discriminate) ltac:(discriminate)
    | PEnum b => HS (PEnum b) ltac:(discriminate) ltac:(discriminate) ltac:(discriminate)
    end.
End PInd.

(** * C85: replies can be read *)

(** the standard definitions of the wrapped types *)
Definition one_of n k := mkF (tx n) k false true (Some 0%N).
Record standard (p : schema) : Prop := {
  st_struct : forall d, In d p -> md_name d = tx "google.protobuf.Struct" -> exists e, md_fields d = [r_of "fields" (FMsg e)] /\ exists de, lookup p e = Some de /\ md_entry de = true;
  st_value : forall d, In d p -> md_name d = tx "google.protobuf.Value" -> md_entry d = false /\
    md_fields d = [one_of "null_value" (FEnum [0%Z]); one_of "number_value" FDouble; one_of "string_value" FString; one_of "bool_value" FBool;
                   one_of "struct_value" (FMsg (tx "google.protobuf.Struct")); one_of "list_value" (FMsg (tx "google.protobuf.ListValue"))];
  st_list : forall d, In d p -> md_name d = tx "google.protobuf.ListValue" -> md_fields d = [r_of "values" (FMsg (tx "google.protobuf.Value"))] }.

(** every timestamp in the message is one the library accepts *)
Definition or_zero (o : option pval) (z : pval) : pval := match o with Some w => w | None => z end.
Inductive times (C : cenv) : pval -> Prop :=
| times_scalar w : (forall n l, w <> PMsg n l) -> (forall l, w <> PList l) -> (forall l, w <> PMap l) -> times C w
| times_list l : (forall w, In w l -> times C w) -> times C (PList l)
| times_map l : (forall k w, In (k, w) l -> times C w) -> times C (PMap l)
| times_msg n l : (forall k w, In (k, w) l -> times C w) ->
    (n = tx "google.protobuf.Timestamp" -> forall s z, or_zero (tget (tx "seconds") l) (PI64 0) = PI64 s -> or_zero (tget (tx "nanos") l) (PI32 0) = PI32 z ->
       cv_time C s (Z.to_N (z mod 2^32)) <> None) -> times C (PMsg n l).

Lemma no_presence f : supports_presence f = false -> fd_repeated f = true \/ forall n, fd_kind f <> FMsg n.
Proof.
  unfold supports_presence. destruct (fd_repeated f); [now left|]. cbn. intros H. right. intros n He. rewrite He in H. now rewrite orb_true_r in H.
Qed.
Lemma default_reads C p f : supports_presence f = false -> exists v, default_to_cel C p f = Some v.
Proof.
  intros H. unfold default_to_cel, default_of. destruct (is_map p f); [eauto|]. destruct (fd_repeated f) eqn:Hr; [eauto|].
  destruct (no_presence f H) as [H'|H']; [congruence|]. destruct (fd_kind f); cbn; eauto. now destruct (H' name).
Qed.
Lemma read_total C p cs : forall todo, (forall g r, In g todo -> tget (fd_name g) cs = Some r -> r <> None) -> exists L, read_fields C p todo cs = Some L.
Proof.
  induction todo as [|f todo IH]; intros H; cbn [read_fields]; [eauto|]. destruct IH as [L HL]; [intros g r Hg; apply H; now right|].
  destruct (tget (fd_name f) cs) as [[v|]|] eqn:Hf; [rewrite HL; eauto|now destruct (H f None (or_introl eq_refl))|].
  destruct (supports_presence f) eqn:Hp; [eauto|]. destruct (default_reads C p f Hp) as [v ->]. rewrite HL. eauto.
Qed.
Lemma read_map_total l : forall acc, (forall k r, In (k, r) l -> r <> None) -> exists m, read_map l acc = Some m.
Proof.
  induction l as [|[k [v|]] l IH]; intros acc H; cbn; [eauto| |now destruct (H k None (or_introl eq_refl))]. apply IH. intros k' r Hi. apply (H k'). now right.
Qed.
Lemma all_some_total {A} (l : list (option A)) : (forall r, In r l -> r <> None) -> exists m, all_some l = Some m.
Proof.
  induction l as [|[x|] l IH]; intros H; cbn; [eauto| |now destruct (H None (or_introl eq_refl))]. destruct IH as [m ->]; [intros r Hi; apply H; now right|eauto].
Qed.

Section Read.
  Variables (C : cenv) (p : schema) (K : fkind -> pkey -> Prop).
  Hypothesis G : good p.
  Hypothesis S : standard p.
  Lemma reads : forall w b f, In f (flat_map md_fields p) -> conf K p b f w -> times C w -> exists v, to_cel C p w = Some v.
  Proof.
    apply (pval_ind' (fun w => forall b f, In f (flat_map md_fields p) -> conf K p b f w -> times C w -> exists v, to_cel C p w = Some v)).
    - intros w H1 H2 H3 b f _ _ _. destruct w; cbn; eauto; exfalso; [now apply (H1 name fields)|now apply (H2 l)|now apply (H3 l)].
    - intros n l Hl b f Hin Hc Ht.
      assert (Hm : exists d, fd_kind f = FMsg n /\ lookup p n = Some d /\ (forall k w, tget k l = Some w -> exists g, In g (md_fields d) /\ fd_name g = k) /\
        (forall g w, In g (md_fields d) -> tget (fd_name g) l = Some w -> conf K p true g w)).
      { assert (Hc' : conf K p false f (PMsg n l)) by (inversion Hc; subst; auto; try (eapply conf_one; eassumption); eapply conf_msg; eassumption).
        inversion Hc' as [| | |? ? Hs|? ? d ? Hk Hlk Hd Hg _]; subst; [inversion Hs|eauto]. }
      destruct Hm as (d & Hk & Hlk & Hd & Hg). destruct (lookup_In _ _ _ Hlk) as [Hdp Hnm]. cbn [to_cel]. rewrite Hlk.
      set (cs := map (fun kv => (fst kv, to_cel C p (snd kv))) l).
      assert (Hcs : forall k, tget k cs = option_map (to_cel C p) (tget k l)) by (intros k; apply tget_map).
      assert (Hval : forall k w, tget k l = Some w -> exists v, tget k cs = Some (Some v) /\ to_cel C p w = Some v).
      { intros k w Hkw. destruct (Hd k w Hkw) as (g & Hgd & He). subst k. pose proof (aget_In text_eqb text_eqb_eq _ _ _ Hkw) as Hi.
        rewrite Forall_forall in Hl. destruct (Hl _ Hi true g) as [v Hv].
        - apply in_flat_map. eauto.
        - now apply Hg.
        - inversion Ht as [? H1| | |? ? Htt _]; subst; [exfalso; eapply H1; reflexivity|]. now apply (Htt (fd_name g)).
        - exists v. rewrite Hcs, Hkw. cbn. cbn in Hv. now rewrite Hv. }
      destruct (text_eqb n t_timestamp) eqn:E1.
      { apply text_eqb_eq in E1. rewrite E1 in Hnm. pose proof (g_time p G d Hdp Hnm) as Hf. unfold timestamp_to_cel, field_by_name. rewrite Hf.
        change (exists v, match (match tget (tx "seconds") l with Some w => Some w | None => Some (PI64 0) end), (match tget (tx "nanos") l with Some w => Some w | None => Some (PI32 0) end) with
                          | Some (PI64 s), Some (PI32 z) => option_map VTimestamp (cv_time C s (i32_as_u32 z)) | _, _ => None end = Some v).
        assert (Ts : exists s, or_zero (tget (tx "seconds") l) (PI64 0) = PI64 s).
        { destruct (tget (tx "seconds") l) as [w|] eqn:Hw; [|cbn; eauto]. assert (Hcw : conf K p true (f_of "seconds" FInt64) w) by (apply Hg; [rewrite Hf; now left|exact Hw]).
          inversion Hcw as [? ? ? ? ? (n0 & Hr0 & _)|? ? Hr0|? ? Hr0 Hcw'| |]; subst; try discriminate Hr0. inversion Hcw' as [| | |? ? Hs|? ? ? ? Hk0]; subst; [|discriminate Hk0]. inversion Hs; subst; cbn; eauto; cbn in *; intuition discriminate. }
        assert (Tn : exists s, or_zero (tget (tx "nanos") l) (PI32 0) = PI32 s).
        { destruct (tget (tx "nanos") l) as [w|] eqn:Hw; [|cbn; eauto]. assert (Hcw : conf K p true (f_of "nanos" FInt32) w) by (apply Hg; [rewrite Hf; right; now left|exact Hw]).
          inversion Hcw as [? ? ? ? ? (n0 & Hr0 & _)|? ? Hr0|? ? Hr0 Hcw'| |]; subst; try discriminate Hr0. inversion Hcw' as [| | |? ? Hs|? ? ? ? Hk0]; subst; [|discriminate Hk0]. inversion Hs; subst; cbn; eauto; cbn in *; intuition discriminate. }
        destruct Ts as [s Hs], Tn as [z Hz].
        assert (Hok : cv_time C s (i32_as_u32 z) <> None).
        { inversion Ht as [? H1| | |? ? _ Htt]; subst; [exfalso; eapply H1; reflexivity|]. now apply (Htt eq_refl s z). }
        destruct (tget (tx "seconds") l); cbn in Hs; [rewrite Hs|injection Hs as <-]; (destruct (tget (tx "nanos") l); cbn in Hz; [rewrite Hz|injection Hz as <-]);
          (destruct (cv_time C _ _); [cbn; eauto|easy]). }
      destruct (text_eqb n t_struct) eqn:E2.
      { apply text_eqb_eq in E2. rewrite E2 in Hnm. destruct (st_struct p S d Hdp Hnm) as (e & Hf & de & Hle & Hen). unfold unwrap_field, field_by_name. rewrite Hf. cbn [find f_of r_of fd_name].
        replace (text_eqb (tx "fields") (tx "fields")) with true by reflexivity.
        destruct (tget (tx "fields") l) as [w|] eqn:Hw.
        - destruct (Hval _ _ Hw) as (v & Hv & _). rewrite Hv. assert (Hcw : conf K p true (r_of "fields" (FMsg e)) w) by (apply Hg; [rewrite Hf; now left|exact Hw]).
          inversion Hcw as [|? ? Hr0 Hne|? ? Hr0| |]; subst; cbn [is_pmap]; eauto; [|discriminate Hr0]. exfalso. apply (Hne de). exists e. auto.
        - unfold default_of, default_to_cel, default_of, is_map. cbn [fd_repeated fd_kind r_of andb]. rewrite Hle, Hen. cbn. eauto. }
      destruct (text_eqb n t_value) eqn:E3.
      { apply text_eqb_eq in E3. rewrite E3 in Hnm. destruct (st_value p S d Hdp Hnm) as [_ Hf]. rewrite Hf.
        cbn [unwrap_value one_of fd_name fd_oneof].
        destruct (tget (tx "null_value") cs) as [r1|] eqn:H1; [vm_compute (text_eqb _ _); eauto|].
        assert (Hfor : forall k r, tget k cs = Some r -> exists v, r = Some v).
        { intros k r Hkr. pose proof (Hcs k) as Hx. rewrite Hkr in Hx. destruct (tget k l) as [w|] eqn:Hw; [|discriminate]. destruct (Hval k w Hw) as (v & Hv & _). rewrite Hkr in Hv. injection Hv as ->. eauto. }
        destruct (tget (tx "number_value") cs) as [r|] eqn:H2; [destruct (Hfor _ _ H2) as [v ->]; vm_compute (text_eqb _ _); vm_compute (mem_text _ _); eauto|].
        destruct (tget (tx "string_value") cs) as [r|] eqn:H3; [destruct (Hfor _ _ H3) as [v ->]; vm_compute (text_eqb _ _); vm_compute (mem_text _ _); eauto|].
        destruct (tget (tx "bool_value") cs) as [r|] eqn:H4; [destruct (Hfor _ _ H4) as [v ->]; vm_compute (text_eqb _ _); vm_compute (mem_text _ _); eauto|].
        destruct (tget (tx "struct_value") cs) as [r|] eqn:H5; [destruct (Hfor _ _ H5) as [v ->]; vm_compute (text_eqb _ _); vm_compute (mem_text _ _); eauto|].
        destruct (tget (tx "list_value") cs) as [r|] eqn:H6; [destruct (Hfor _ _ H6) as [v ->]; vm_compute (text_eqb _ _); vm_compute (mem_text _ _); eauto|]. eauto. }
      destruct (text_eqb n t_list) eqn:E4.
      { apply text_eqb_eq in E4. rewrite E4 in Hnm. pose proof (st_list p S d Hdp Hnm) as Hf. unfold unwrap_field, field_by_name. rewrite Hf. cbn [find r_of fd_name].
        replace (text_eqb (tx "values") (tx "values")) with true by reflexivity.
        assert (Hnv : is_map p (r_of "values" (FMsg (tx "google.protobuf.Value"))) = false).
        { unfold is_map. cbn [fd_repeated fd_kind r_of andb]. destruct (lookup p (tx "google.protobuf.Value")) as [dv|] eqn:Hv; [|easy]. destruct (lookup_In _ _ _ Hv) as [Hv1 Hv2]. now destruct (st_value p S dv Hv1 Hv2). }
        destruct (tget (tx "values") l) as [w|] eqn:Hw.
        - destruct (Hval _ _ Hw) as (v & Hv & _). rewrite Hv. assert (Hcw : conf K p true (r_of "values" (FMsg (tx "google.protobuf.Value"))) w) by (apply Hg; [rewrite Hf; now left|exact Hw]).
          inversion Hcw as [? e ? ? ? Hme|? ? Hr0 Hne|? ? Hr0| |]; subst; cbn [is_plist]; eauto; [|discriminate Hr0]. destruct (is_map_spec _ _ _ Hme) as [Hx _]. congruence.
        - unfold default_to_cel, default_of. fold (r_of "values" (FMsg (tx "google.protobuf.Value"))). rewrite Hnv. cbn. eauto. }
      destruct (read_total C p cs (md_fields d)) as [L ->]; [|cbn; eauto].
      intros g r Hgd Hr. rewrite Hcs in Hr. destruct (tget (fd_name g) l) as [w|] eqn:Hw; [|discriminate]. injection Hr as <-. destruct (Hval _ _ Hw) as (v & _ & Hv). congruence.
    - intros l Hl b f Hin Hc Ht. cbn [to_cel]. destruct (all_some_total (map (to_cel C p) l)) as [m ->]; [|cbn; eauto].
      intros r Hr. apply in_map_iff in Hr as (w & <- & Hw). rewrite Forall_forall in Hl.
      assert (Hcw : conf K p false f w) by (inversion Hc as [|? ? ? ? He|? ? Hr Hc'|? ? Hs|]; subst; [now apply He|inversion Hc' as [| | |? ? Hs|]; inversion Hs|inversion Hs]).
      assert (Htw : times C w) by (inversion Ht as [? ? H2| | |]; subst; [exfalso; eapply H2; reflexivity|auto]).
      destruct (Hl w Hw false f Hin Hcw Htw) as [v Hv]. congruence.
    - intros l Hl b f Hin Hc Ht. cbn [to_cel].
      assert (He : exists e vf, In e p /\ In vf (md_fields e) /\ forall k w, In (k, w) l -> conf K p false vf w).
      { inversion Hc as [? e kf vf ? Hme _ _ Hvf _ _ _ Hv| |? ? Hr Hc'|? ? Hs|]; subst; [|inversion Hc' as [| | |? ? Hs|]; inversion Hs|inversion Hs].
        destruct Hme as (n & _ & _ & Hle & _). destruct (lookup_In _ _ _ Hle) as [Hep _]. eauto. }
      destruct He as (e & vf & Hep & Hvf & Hcv).
      destruct (read_map_total (map (fun kv => (key_to_cel (fst kv), to_cel C p (snd kv))) l) []) as [m ->]; [|cbn; eauto].
      intros k r Hr. apply in_map_iff in Hr as ([x w] & [= _ <-] & Hw). rewrite Forall_forall in Hl.
      destruct (Hl (x, w) Hw false vf) as [v Hv]; [apply in_flat_map; eauto|exact (Hcv x w Hw)| |cbn in *; congruence].
      inversion Ht as [? ? ? H3| | |]; subst; [exfalso; eapply H3; reflexivity|eauto].
  Qed.
End Read.

(** the set fields of a message conform to its type *)
Definition conforms (K : fkind -> pkey -> Prop) (p : schema) (d : mdesc) (fs : list (text * pval)) : Prop :=
  (forall k w, tget k fs = Some w -> exists g, In g (md_fields d) /\ fd_name g = k) /\
  (forall g w, In g (md_fields d) -> tget (fd_name g) fs = Some w -> conf K p true g w) /\
  (forall g h, In g (md_fields d) -> In h (md_fields d) -> rival g h -> tget (fd_name g) fs = None \/ tget (fd_name h) fs = None).

(** C85, proved for replies whose timestamps are in the range the library represents *)
Theorem C85_replies_can_be_read_partial C p n d fs : good p -> standard p -> lookup p n = Some d -> conforms conf_key p d fs ->
  (forall k w, In (k, w) fs -> times C w) -> exists v, message_to_cel C p n fs = Some v.
Proof.
  intros G S Hl (Hd & Hg & _) Ht. unfold message_to_cel. rewrite Hl. destruct (lookup_In _ _ _ Hl) as [Hdp _].
  destruct (read_total C p (map (fun kv => (fst kv, to_cel C p (snd kv))) fs) (md_fields d)) as [L ->]; [|cbn; eauto].
  intros g r Hgd Hr. rewrite (tget_map (to_cel C p)) in Hr. destruct (tget (fd_name g) fs) as [w|] eqn:Hw; [|discriminate]. injection Hr as <-.
  destruct (reads C p conf_key G S w true g) as [v Hv]; [apply in_flat_map; eauto|now apply Hg|exact (Ht _ _ (aget_In text_eqb text_eqb_eq _ _ _ Hw))|congruence].
Qed.
(** C85 fails: one timestamp out of range and nothing of the reply can be read *)
Definition Ct : cenv := mkCenv (fun b => Some b) (fun b => b) (fun s n => if N.ltb n 2000000000 then Some (s * 1000000000 + Z.of_N n)%Z else None).
Theorem C85_bad_timestamp_hides_reply_refuted : exists n d fs, lookup demo n = Some d /\ conforms conf_key demo d fs /\
  tget (tx "id") fs = Some (PI32 7) /\ message_to_cel Ct demo n fs = None.
Proof.
  exists (tx "T"). eexists. exists [(tx "id", PI32 7); (tx "when", PMsg t_timestamp [(tx "seconds", PI64 1); (tx "nanos", PI32 (-1))])].
  split; [reflexivity|]. split; [|split; [reflexivity|reflexivity]]. split; [|split].
  - intros k w Hk. apply (aget_In text_eqb text_eqb_eq) in Hk. destruct Hk as [Hk|[Hk|[]]]; injection Hk as <- <-; [exists (f_of "id" FInt32)|exists (f_of "when" (FMsg t_timestamp))]; (split; [cbn; tauto|reflexivity]).
  - intros g w Hg Hw. cbn in Hg. repeat destruct Hg as [<-|Hg]; try easy; vm_compute in Hw; try discriminate Hw; injection Hw as <-; (apply conf_whole; [reflexivity|]).
    + apply conf_one. apply cs_i32; [now left|easy].
    + eapply conf_msg; [reflexivity|reflexivity| | |].
      * intros k w Hk. apply (aget_In text_eqb text_eqb_eq) in Hk. destruct Hk as [Hk|[Hk|[]]]; injection Hk as <- <-; [exists (f_of "seconds" FInt64)|exists (f_of "nanos" FInt32)]; (split; [cbn; tauto|reflexivity]).
      * intros g w Hg Hw. cbn in Hg. destruct Hg as [<-|[<-|[]]]; vm_compute in Hw; injection Hw as <-; (apply conf_whole; [reflexivity|]); apply conf_one; [apply cs_i64|apply cs_i32]; cbn; (tauto || easy).
      * intros g h Hg _ (o & Ho & _). cbn in Hg. destruct Hg as [<-|[<-|[]]]; discriminate Ho.
  - intros g h Hg Hh Hr. destruct Hr as (o & Ho1 & Ho2 & Hne). cbn in Hg. repeat destruct Hg as [<-|Hg]; try easy; try discriminate Ho1; left; reflexivity.
Qed.

(** * C86: what expressions see has the registered type *)
Inductive has_type : ctype -> value -> Prop :=
| ht_bool b : has_type CBool (VBool b)
| ht_int z : has_type CInt (VInt z)
| ht_uint n : has_type CUInt (VUInt n)
| ht_double b : has_type CDouble (VFloat b)
| ht_string s : has_type CString (VString s)
| ht_bytes s : has_type CBytes (VBytes s)
| ht_time t : has_type CTimestamp (VTimestamp t)
| ht_list l : has_type CList (VList l)
| ht_map l : has_type CMap (VMap l)
| ht_struct n l : has_type (CStruct n) (VStruct n l).
Definition unwrapped (f : fdesc) : Prop :=
  fd_repeated f = false /\ exists n, fd_kind f = FMsg n /\ In n [tx "google.protobuf.Struct"; tx "google.protobuf.Value"; tx "google.protobuf.ListValue"].

Lemma scalar_type k w : conf_scalar k w -> (forall n, k <> FMsg n) /\ forall C p v, to_cel C p w = Some v -> has_type (kind_type k) v.
Proof.
  intros H. destruct H as [b|k z Hk|k z Hk|k z Hk|k z Hk|b|b|s|s|l z Hz]; try (split; [discriminate|intros C p v [= <-]; constructor]);
  cbn in Hk; repeat destruct Hk as [<-|Hk]; try easy; (split; [discriminate|intros C p v [= <-]; constructor]).
Qed.
Lemma seen_type K C p f w v t : conf K p true f w -> to_cel C p w = Some v -> typed p f t -> ~ unwrapped f -> has_type t v.
Proof.
  intros Hc Hv Ht Hu. inversion Hc as [? e kf vf l Hme|? l Hr Hne|? ? Hr Hc'| |]; subst.
  - destruct Hme as (n & Hr & Hk & Hl & He). cbn [to_cel] in Hv. destruct (read_map _ _); [|discriminate]. injection Hv as <-.
    inversion Ht as [| Hr' Hx|? ?|? ?|? ?|? ?|? ?|? ?|? ?|? ?|? ?]; try congruence; [constructor|]. rewrite (Hx n e Hk Hl) in He. discriminate.
  - cbn [to_cel] in Hv. destruct (all_some _); [|discriminate]. injection Hv as <-.
    inversion Ht as [n e Hr' Hk Hl He| |? ?|? ?|? ?|? ?|? ?|? ?|? ?|? ?|? ?]; try congruence; [|constructor]. exfalso. apply (Hne e). exists n. auto.
  - inversion Hc' as [| | |? ? Hs|? n d fs Hk Hl]; subst.
    + destruct (scalar_type _ _ Hs) as [Hn Hty]. specialize (Hty C p v Hv).
      inversion Ht as [| | ? Hk|? Hk|? ? Hk|? Hk|? Hk|? Hk|? Hk|? Hk|? ? Hk]; subst; try congruence; try (rewrite Hk in Hty; exact Hty);
        cbn in Hk; repeat destruct Hk as [Hk|Hk]; try easy; rewrite <- Hk in Hty; exact Hty.
    + cbn [to_cel] in Hv. rewrite Hl in Hv.
      assert (Hnu : forall x, In x [tx "google.protobuf.Struct"; tx "google.protobuf.Value"; tx "google.protobuf.ListValue"] -> text_eqb n x = false).
      { intros x Hx. apply text_eqb_neq. intros ->. apply Hu. split; [exact Hr|eauto]. }
      inversion Ht as [| | ? Hk'|? Hk'|? ? Hk'|? Hk'|? Hk'|? Hk'|? Hk'|? Hk'|? ? Hk' Hne]; subst; try congruence; rewrite Hk in Hk'; try congruence; try (cbn in Hk'; intuition discriminate).
      * injection Hk' as ->. fold t_timestamp in Hv. rewrite text_eqb_refl in Hv. unfold timestamp_to_cel in Hv.
        destruct (field_by_name d (tx "seconds")); [|discriminate]. destruct (field_by_name d (tx "nanos")); [|discriminate].
        destruct (match tget (fd_name f0) fs with Some v => Some v | None => default_of p f0 end) as [[]|]; try discriminate.
        destruct (match tget (fd_name f1) fs with Some v => Some v | None => default_of p f1 end) as [[]|]; try discriminate.
        destruct (cv_time _ _ _); [|discriminate]. injection Hv as <-. constructor.
      * injection Hk' as <-. rewrite (proj2 (text_eqb_neq n t_timestamp) Hne) in Hv.
        rewrite (Hnu t_struct), (Hnu t_value), (Hnu t_list) in Hv by (cbn; tauto). destruct (read_fields _ _ _ _); [|discriminate]. injection Hv as <-. constructor.
Qed.
Lemma default_type C p f v t : default_to_cel C p f = Some v -> typed p f t -> has_type t v.
Proof.
  unfold default_to_cel, default_of. intros Hv Ht. destruct Ht as [n e Hr Hk Hl He|Hr Hne|Hr Hk|Hr Hk|l Hr Hk|Hr Hk|Hr Hk|Hr Hk|Hr Hk|Hr Hk|n Hr Hk Hne].
  - unfold is_map in Hv. rewrite Hr, Hk, Hl, He in Hv. injection Hv as <-. constructor.
  - replace (is_map p f) with false in Hv; [rewrite Hr in Hv; injection Hv as <-; constructor|].
    symmetry. unfold is_map. rewrite Hr. destruct (fd_kind f) eqn:Hk; try easy. destruct (lookup p name) eqn:Hl; [|easy]. cbn. now apply (Hne name m).
  - unfold is_map in Hv. rewrite Hr, Hk in Hv. injection Hv as <-. constructor.
  - unfold is_map in Hv. rewrite Hr in Hv. cbn in Hk. repeat destruct Hk as [Hk|Hk]; try easy; rewrite <- Hk in Hv; injection Hv as <-; constructor.
  - unfold is_map in Hv. rewrite Hr, Hk in Hv. injection Hv as <-. constructor.
  - unfold is_map in Hv. rewrite Hr in Hv. cbn in Hk. repeat destruct Hk as [Hk|Hk]; try easy; rewrite <- Hk in Hv; injection Hv as <-; constructor.
  - unfold is_map in Hv. rewrite Hr in Hv. cbn in Hk. repeat destruct Hk as [Hk|Hk]; try easy; rewrite <- Hk in Hv; injection Hv as <-; constructor.
  - unfold is_map in Hv. rewrite Hr, Hk in Hv. injection Hv as <-. constructor.
  - unfold is_map in Hv. rewrite Hr, Hk in Hv. injection Hv as <-. constructor.
  - unfold is_map in Hv. rewrite Hr, Hk in Hv. discriminate.
  - unfold is_map in Hv. rewrite Hr, Hk in Hv. discriminate.
Qed.
(** the fields of the struct, for any message *)
Lemma read_shape C p cs : forall todo L, NoDup (map fd_name todo) -> read_fields C p todo cs = Some L ->
  (forall g, In g todo -> match tget (fd_name g) cs with
     | Some r => tget (fd_name g) L = r
     | None => if supports_presence g then tget (fd_name g) L = None else tget (fd_name g) L = default_to_cel C p g end) /\
  (forall k, ~ In k (map fd_name todo) -> tget k L = None).
Proof.
  induction todo as [|f todo IH]; intros L Hn; cbn [read_fields]; [intros [= <-]; easy|]. cbn in Hn. inversion Hn as [|? ? Hx Hn']; subst.
  assert (Hput : forall v L', read_fields C p todo cs = Some L' ->
    (forall g, In g todo -> tget (fd_name g) ((fd_name f, v) :: L') = tget (fd_name g) L') /\ (forall k, ~ In k (map fd_name (f :: todo)) -> tget k ((fd_name f, v) :: L') = None) /\ tget (fd_name f) ((fd_name f, v) :: L') = Some v).
  { intros v L' HL'. destruct (IH L' Hn' HL') as [_ H2]. split; [|split].
    - intros g Hg. cbn. destruct (text_eqb (fd_name g) (fd_name f)) eqn:He; [|easy]. apply text_eqb_eq in He. exfalso. apply Hx. rewrite <- He. now apply in_map.
    - cbn. intros k Hk. destruct (text_eqb k (fd_name f)) eqn:He; [apply text_eqb_eq in He; subst; tauto|]. apply H2. tauto.
    - cbn. now rewrite text_eqb_refl. }
  destruct (tget (fd_name f) cs) as [[v|]|] eqn:Hf; [|discriminate|].
  - destruct (read_fields C p todo cs) as [L'|] eqn:HL; [|discriminate]. intros [= <-]. destruct (Hput v L' eq_refl) as (P1 & P2 & P3). destruct (IH L' Hn' eq_refl) as [H1 _].
    split; [|exact P2]. intros g [<-|Hg]; [rewrite Hf; exact P3|]. rewrite (P1 g Hg). now apply H1.
  - destruct (supports_presence f) eqn:Hp.
    + intros HL. destruct (IH L Hn' HL) as [H1 H2]. split; [|cbn; intros k Hk; apply H2; tauto]. intros g [<-|Hg]; [rewrite Hf, Hp; now apply H2|now apply H1].
    + destruct (default_to_cel C p f) as [v|] eqn:Hd; [|discriminate]. destruct (read_fields C p todo cs) as [L'|] eqn:HL; [|discriminate]. intros [= <-].
      destruct (Hput v L' eq_refl) as (P1 & P2 & P3). destruct (IH L' Hn' eq_refl) as [H1 _]. split; [|exact P2].
      intros g [<-|Hg]; [rewrite Hf, Hp, Hd; exact P3|]. rewrite (P1 g Hg). now apply H1.
Qed.

(** C86, proved for fields that are not unwrapped *)
Theorem C86_fields_have_their_registered_type_partial C p n d fs v : good p -> lookup p n = Some d -> conforms conf_key p d fs -> message_to_cel C p n fs = Some v ->
  exists L, v = VStruct n L /\
    (forall g x t, In g (md_fields d) -> tget (fd_name g) L = Some x -> typed p g t -> ~ unwrapped g -> has_type t x) /\
    (forall g, In g (md_fields d) -> tget (fd_name g) L = None -> has_presence g /\ tget (fd_name g) fs = None) /\
    (forall k, tget k L <> None -> exists g, In g (md_fields d) /\ fd_name g = k).
Proof.
  intros G Hl (Hd & Hg & _) Hv. unfold message_to_cel in Hv. rewrite Hl in Hv. destruct (lookup_In _ _ _ Hl) as [Hdp _]. pose proof (g_names p G d Hdp) as Hn.
  set (cs := map (fun kv => (fst kv, to_cel C p (snd kv))) fs) in *. destruct (read_fields C p (md_fields d) cs) as [L|] eqn:HL; [|discriminate]. injection Hv as <-.
  assert (Hcs : forall k, tget k cs = option_map (to_cel C p) (tget k fs)) by (intros k; apply tget_map).
  destruct (read_shape C p cs _ L Hn HL) as [H1 H2]. exists L. split; [easy|]. split; [|split].
  - intros g x t Hgd Hx Ht Hu. specialize (H1 g Hgd). rewrite Hcs in H1. destruct (tget (fd_name g) fs) as [w|] eqn:Hw; cbn in H1.
    + rewrite Hx in H1. apply (seen_type conf_key C p g w x t); auto.
    + destruct (supports_presence g); [congruence|]. rewrite Hx in H1. now apply (default_type C p g x t).
  - intros g Hgd Hx. specialize (H1 g Hgd). rewrite Hcs in H1. destruct (tget (fd_name g) fs) as [w|] eqn:Hw; cbn in H1.
    + exfalso. rewrite Hx in H1. assert (Hr : forall todo L, In g todo -> read_fields C p todo cs = Some L -> False).
      { clear - Hcs Hw H1. induction todo as [|f todo IH]; intros L Hi; [easy|]. cbn [read_fields]. destruct Hi as [->|Hi].
        - rewrite Hcs, Hw. cbn. rewrite <- H1. discriminate.
        - destruct (match tget (fd_name f) cs with Some r => Some r | None => if supports_presence f then None else Some (default_to_cel C p f) end) as [[x|]|]; [|discriminate|now apply IH].
          destruct (read_fields C p todo cs) as [L'|] eqn:HL'; [|discriminate]. intros _. now apply (IH L'). }
      now apply (Hr (md_fields d) L).
    + split; [|easy]. destruct (supports_presence g) eqn:Hp.
      * unfold supports_presence in Hp. apply andb_true_iff in Hp as [Hp1 Hp2]. apply negb_true_iff in Hp1. split; [exact Hp1|].
        apply orb_true_iff in Hp2 as [Hp2|Hp2]; [apply orb_true_iff in Hp2 as [Hp2|Hp2]; [now left|right; left; now destruct (fd_oneof g)]|right; right; destruct (fd_kind g); try discriminate; eauto].
      * destruct (default_reads C p g Hp) as [x Hd']. congruence.
  - intros k Hk. destruct (in_dec text_eq_dec k (map fd_name (md_fields d))) as [Hi|Hi]; [apply in_map_iff in Hi as (g & He & Hgd); eauto|]. now rewrite (H2 k Hi) in Hk.
Qed.
(** C86 fails for the wrapped types: the registered type is a struct, the value is not *)
Theorem C86_wrapped_field_has_another_type_refuted : exists n d fs L g x t, lookup demo n = Some d /\ message_to_cel Cd demo n fs = Some (VStruct n L) /\
  In g (md_fields d) /\ tget (fd_name g) L = Some x /\ typed demo g t /\ ~ has_type t x /\
  exists defs ds, collect_struct_defs demo n = Some defs /\ In (n, ds) defs /\ In (fd_name g, t) ds.
Proof.
  exists (tx "T"). eexists. exists [(tx "any", PMsg t_value [(tx "string_value", PStr (tx "s"))])]. eexists.
  exists (f_of "any" (FMsg (tx "google.protobuf.Value"))), (VString (tx "s")), (CStruct (tx "google.protobuf.Value")).
  split; [reflexivity|]. split; [reflexivity|]. split; [cbn; tauto|]. split; [reflexivity|]. split; [apply ty_struct; [reflexivity|reflexivity|discriminate]|].
  split; [intros H; inversion H|]. eexists. eexists. split; [reflexivity|]. split; [left; reflexivity|]. vm_compute. tauto.
Qed.

(** * C87: what was read can be sent on *)

(** equal messages: a field without presence is its default when unset *)
Definition effective (p : schema) (g : fdesc) (fs : list (text * pval)) : option pval :=
  match tget (fd_name g) fs with
  | Some w => Some w
  | None => if supports_presence g then None else default_of p g
  end.
Inductive prel (R : pval -> pval -> Prop) : option pval -> option pval -> Prop :=
| prel_none : prel R None None
| prel_some a b : R a b -> prel R (Some a) (Some b).
Inductive psame (p : schema) : pval -> pval -> Prop :=
| ps_eq w : psame p w w
| ps_list l m : Forall2 (psame p) l m -> psame p (PList l) (PList m)
| ps_map l m : (forall k, prel (psame p) (aget pkey_eqb k l) (aget pkey_eqb k m)) -> psame p (PMap l) (PMap m)
| ps_msg n d fs gs : lookup p n = Some d -> (forall g, In g (md_fields d) -> prel (psame p) (effective p g fs) (effective p g gs)) -> psame p (PMsg n fs) (PMsg n gs).

(** scalars that can be sent on: declared enum numbers, finite 32-bit floats *)
Definition send_scalar (C : cenv) (k : fkind) (w : pval) : Prop :=
  conf_scalar k w /\ (forall b, w = PF32 b -> cv_narrow C (cv_widen C b) = Some b) /\ (forall l z, k = FEnum l -> w = PEnum z -> In z l).
(** [sendable C p whole f w]: [w] conforms to [f] and contains no wrapped type *)
Inductive sendable (C : cenv) (p : schema) : bool -> fdesc -> pval -> Prop :=
| sd_map f e kf vf l : map_entry p f e -> In kf (md_fields e) -> fd_name kf = tx "key" -> In vf (md_fields e) -> fd_name vf = tx "value" ->
    NoDup (map fst l) -> (forall k w, In (k, w) l -> conf_key (fd_kind kf) k) -> (forall k w, In (k, w) l -> sendable C p false vf w) -> sendable C p true f (PMap l)
| sd_list f l : fd_repeated f = true -> (forall e, ~ map_entry p f e) -> (forall w, In w l -> sendable C p false f w) -> sendable C p true f (PList l)
| sd_whole f w : fd_repeated f = false -> sendable C p false f w -> sendable C p true f w
| sd_one f w : send_scalar C (fd_kind f) w -> sendable C p false f w
| sd_time f fs s z : fd_kind f = FMsg (tx "google.protobuf.Timestamp") -> or_zero (tget (tx "seconds") fs) (PI64 0) = PI64 s -> or_zero (tget (tx "nanos") fs) (PI32 0) = PI32 z ->
    (0 <= z < 10^9)%Z -> cv_time C s (Z.to_N z) = Some (s * 10^9 + z)%Z -> sendable C p false f (PMsg (tx "google.protobuf.Timestamp") fs)
| sd_msg f n d fs : fd_kind f = FMsg n -> ordinary n -> lookup p n = Some d ->
    (forall g h, In g (md_fields d) -> In h (md_fields d) -> rival g h -> tget (fd_name g) fs = None \/ tget (fd_name h) fs = None) ->
    (forall g w, In g (md_fields d) -> tget (fd_name g) fs = Some w -> sendable C p true g w) -> sendable C p false f (PMsg n fs).
(** what protobuf guarantees of enums (a first member, 32-bit numbers) and oneofs (no repeated members) *)
Definition oneofs_ok (p : schema) : Prop := forall d f, In d p -> In f (md_fields d) -> fd_oneof f <> None -> fd_repeated f = false.
Definition enums_ok (p : schema) : Prop := forall d f l, In d p -> In f (md_fields d) -> fd_kind f = FEnum l -> exists z, hd_error l = Some z /\ (-(2^31) <= z < 2^31)%Z.

Lemma send_round C k w : send_scalar C k w -> exists v, scalar_to_cel C w = Some v /\ scalar_to_proto C k v = Some w.
Proof.
  intros (Hc & Hf & He). destruct Hc as [b|k z Hk Hz|k z Hk Hz|k n Hk Hn|k n Hk Hn|b|b|s|s|l z Hz]; cbn [scalar_to_cel]; eexists; (split; [reflexivity|]); try reflexivity.
  - cbn in Hk. destruct Hk as [<-|[<-|[<-|[]]]]; cbn; now rewrite as_i32_id.
  - cbn in Hk. destruct Hk as [<-|[<-|[<-|[]]]]; reflexivity.
  - cbn in Hk. destruct Hk as [<-|[<-|[]]]; cbn; now rewrite as_u32_id.
  - cbn in Hk. destruct Hk as [<-|[<-|[]]]; reflexivity.
  - cbn. now rewrite (Hf b eq_refl).
  - unfold scalar_to_proto. replace (Z.leb (-2147483648) z) with true by (symmetry; apply Z.leb_le; lia). replace (Z.leb z 2147483647) with true by (symmetry; apply Z.leb_le; lia).
    replace (existsb (Z.eqb z) l) with true; [reflexivity|]. symmetry. apply existsb_exists. exists z. split; [now apply (He l z)|apply Z.eqb_refl].
Qed.
Lemma conf_key_round k x : conf_key k x -> key_to_proto (key_to_cel x) k = Some x.
Proof.
  intros [b|j z Hk Hz|j z Hk Hz|j n Hk Hn|j n Hk Hn|s]; cbn in *; try reflexivity.
  - destruct Hk as [<-|[<-|[<-|[]]]]; now rewrite as_i32_id.
  - destruct Hk as [<-|[<-|[<-|[]]]]; reflexivity.
  - destruct Hk as [<-|[<-|[]]]; now rewrite as_u32_id.
  - destruct Hk as [<-|[<-|[]]]; reflexivity.
Qed.
Lemma default_round C p f v : enums_ok p -> cv_narrow C (cv_widen C 0%N) = Some 0%N -> In f (flat_map md_fields p) -> default_to_cel C p f = Some v ->
  (is_map p f = true -> exists n e, fd_kind f = FMsg n /\ lookup p n = Some e /\ field_by_name e (tx "key") <> None /\ field_by_name e (tx "value") <> None) ->
  to_proto C p true f v = default_of p f.
Proof.
  intros He H0 Hin. unfold default_to_cel, default_of. destruct (is_map p f) eqn:Hm.
  - intros [= <-] Hent. cbn [to_proto]. rewrite Hm. cbn [andb]. destruct (Hent eq_refl) as (n & e & Hk & Hl & H1 & H2). rewrite Hk, Hl.
    destruct (field_by_name e (tx "key")); [|easy]. destruct (field_by_name e (tx "value")); [|easy]. reflexivity.
  - destruct (fd_repeated f) eqn:Hr; [intros [= <-] _; cbn [to_proto]; rewrite Hm, Hr; reflexivity|].
    intros Hv _. rewrite to_proto_singular, to_proto_one by exact Hr. destruct (fd_kind f) eqn:Hk; try discriminate; cbn in Hv; injection Hv as <-; try reflexivity.
    + cbn. now rewrite H0.
    + apply in_flat_map in Hin as (d & Hd & Hf). destruct (He d f numbers Hd Hf Hk) as (z & Hz & Hb). destruct numbers as [|z' l]; [discriminate|]. injection Hz as ->. cbn [hd].
      unfold scalar_to_proto. replace (Z.leb (-2147483648) z) with true by (symmetry; apply Z.leb_le; lia). replace (Z.leb z 2147483647) with true by (symmetry; apply Z.leb_le; lia). cbn [existsb]. rewrite Z.eqb_refl. reflexivity.
Qed.

(** map entries of a pool have a key and a value *)
Definition entries_ok (p : schema) : Prop := forall e, In e p -> md_entry e = true -> field_by_name e (tx "key") <> None /\ field_by_name e (tx "value") <> None.

Definition back (C : cenv) (p : schema) (b : bool) (f : fdesc) (w : pval) : Prop :=
  exists v w', to_cel C p w = Some v /\ to_proto C p b f v = Some w' /\ psame p w w'.

Section Back.
  Variables (C : cenv) (p : schema).
  Hypothesis G : good p.
  Hypothesis He : enums_ok p.
  Hypothesis Hen : entries_ok p.
  Hypothesis Hoo : oneofs_ok p.
  Hypothesis H0 : cv_narrow C (cv_widen C 0%N) = Some 0%N.

  Lemma back_message d fs : In d p ->
    (forall g h, In g (md_fields d) -> In h (md_fields d) -> rival g h -> tget (fd_name g) fs = None \/ tget (fd_name h) fs = None) ->
    (forall g w, In g (md_fields d) -> tget (fd_name g) fs = Some w -> back C p true g w) ->
    exists L m, read_fields C p (md_fields d) (map (fun kv => (fst kv, to_cel C p (snd kv))) fs) = Some L /\
      build_fields d (md_fields d) (map (fun kv => (fst kv, fun g => to_proto C p true g (snd kv))) L) [] = Some m /\
      forall g, In g (md_fields d) -> prel (psame p) (effective p g fs) (effective p g m).
  Proof.
    intros Hd Hone Hb. pose proof (g_names p G d Hd) as Hn. set (cs := map (fun kv => (fst kv, to_cel C p (snd kv))) fs).
    assert (Hcs : forall k, tget k cs = option_map (to_cel C p) (tget k fs)) by (intros k; apply tget_map).
    destruct (read_total C p cs (md_fields d)) as [L HL].
    { intros g r Hg Hr. rewrite Hcs in Hr. destruct (tget (fd_name g) fs) as [w|] eqn:Hw; [|discriminate]. injection Hr as <-. destruct (Hb g w Hg Hw) as (v & w' & Hv & _). congruence. }
    destruct (read_shape C p cs (md_fields d) L Hn HL) as [R1 R2].
    set (fc := map (fun kv => (fst kv, fun g => to_proto C p true g (snd kv))) L).
    assert (Hfc : forall k, tget k fc = option_map (fun v g => to_proto C p true g v) (tget k L)) by (intros k; apply (tget_map (fun v g => to_proto C p true g v))).
    assert (HL' : forall g, In g (md_fields d) -> match tget (fd_name g) fs with
        | Some w => exists v w', tget (fd_name g) L = Some v /\ to_proto C p true g v = Some w' /\ psame p w w'
        | None => if supports_presence g then tget (fd_name g) L = None else exists v, tget (fd_name g) L = Some v /\ to_proto C p true g v = default_of p g /\ default_of p g <> None end).
    { intros g Hg. specialize (R1 g Hg). rewrite Hcs in R1. destruct (tget (fd_name g) fs) as [w|] eqn:Hw; cbn in R1.
      - destruct (Hb g w Hg Hw) as (v & w' & Hv & Hw' & Hs). exists v, w'. rewrite R1, Hv. auto.
      - destruct (supports_presence g) eqn:Hp; [exact R1|]. destruct (default_reads C p g Hp) as [v Hv]. exists v. rewrite R1, Hv. split; [easy|].
        split; [|unfold default_to_cel in Hv; destruct (default_of p g); [discriminate|easy]].
        apply (default_round C p g v He H0); [apply in_flat_map; eauto|exact Hv|].
        intros Hm. unfold is_map in Hm. destruct (fd_repeated g); [cbn in Hm|discriminate]. destruct (fd_kind g); try discriminate. destruct (lookup p name) as [e|] eqn:Hl; [|discriminate].
        exists name, e. split; [easy|]. split; [easy|]. destruct (lookup_In _ _ _ Hl) as [Hep _]. now apply Hen. }
    destruct (build_get d fc) with (todo := md_fields d) (m := @nil (text * pval)) as (m & B1 & B2 & B3).
    - intros g h Hg Hh Hr Hs. rewrite Hfc in *. pose proof (HL' g Hg) as Lg. pose proof (HL' h Hh) as Lh.
      assert (Hp : forall x, In x (md_fields d) -> fd_oneof x <> None -> supports_presence x = true).
      { intros x Hx Hox. unfold supports_presence. rewrite (Hoo d x Hd Hx Hox). destruct (fd_oneof x); [|easy]. now rewrite orb_true_r. }
      assert (Po : fd_oneof g <> None /\ fd_oneof h <> None) by (destruct Hr as (o & -> & -> & _); easy).
      rewrite (Hp g Hg (proj1 Po)) in Lg. rewrite (Hp h Hh (proj2 Po)) in Lh.
      destruct (tget (fd_name g) fs) as [w|] eqn:Eg; [|now rewrite Lg in Hs].
      destruct (Hone g h Hg Hh Hr) as [Hx|Hx]; [congruence|]. rewrite Hx in Lh. now rewrite Lh.
    - easy.
    - exact Hn.
    - easy.
    - intros g c Hg Hc. rewrite Hfc in Hc. destruct (tget (fd_name g) L) as [v|] eqn:Ev; [|discriminate]. injection Hc as <-. specialize (HL' g Hg). rewrite Ev in HL'.
      destruct (tget (fd_name g) fs) as [w|]; [destruct HL' as (v' & w' & [= <-] & Hw & _); congruence|].
      destruct (supports_presence g); [discriminate|]. destruct HL' as (v' & [= <-] & -> & Hne). exact Hne.
    - exists L, m. split; [exact HL|]. split; [exact B1|]. intros g Hg. specialize (HL' g Hg). unfold effective. rewrite (B2 g Hg), Hfc. cbn.
      destruct (tget (fd_name g) fs) as [w|].
      + destruct HL' as (v & w' & -> & Hw & Hs). cbn. rewrite Hw. now constructor.
      + destruct (supports_presence g); [rewrite HL'; constructor|]. destruct HL' as (v & -> & Hw & Hne). cbn. rewrite Hw. destruct (default_of p g); [|easy]. constructor. constructor.
  Qed.

  Lemma back_map f e kf vf l : map_entry p f e -> field_by_name e (tx "key") = Some kf -> field_by_name e (tx "value") = Some vf -> NoDup (map fst l) ->
    (forall k w, In (k, w) l -> conf_key (fd_kind kf) k) -> (forall k w, In (k, w) l -> back C p false vf w) -> back C p true f (PMap l).
  Proof.
    intros Hm Hkf Hvf Hn Hk Hv. destruct (is_map_spec _ _ _ Hm) as (Him & Hr & n & Hkd & Hl).
    assert (H : exists qs : list (mkey * value), exists ps : list (pkey * pval),
      map (fun kv => (key_to_cel (fst kv), to_cel C p (snd kv))) l = map (fun kv => (fst kv, Some (snd kv))) qs /\
      map (fun kv => (key_to_proto (fst kv) (fd_kind kf), to_proto C p false vf (snd kv))) qs = map (fun kv => (Some (fst kv), Some (snd kv))) ps /\
      map fst qs = map key_to_cel (map fst l) /\ map fst ps = map fst l /\ forall k, prel (psame p) (aget pkey_eqb k l) (aget pkey_eqb k ps)).
    { clear Hn. induction l as [|[k w] l IH]; [exists [], []; repeat split; constructor|].
      destruct IH as (qs & ps & I1 & I2 & I3 & I4 & I5); [intros; eapply Hk; right; eassumption|intros; eapply Hv; right; eassumption|].
      destruct (Hv k w (or_introl eq_refl)) as (v & w' & Hv1 & Hv2 & Hs). exists ((key_to_cel k, v) :: qs), ((k, w') :: ps).
      cbn [map fst snd]. rewrite I1, I2, I3, I4, Hv1, Hv2, (conf_key_round _ _ (Hk k w (or_introl eq_refl))). repeat split.
      intros x. cbn [aget]. destruct (pkey_eqb x k); [now constructor|apply I5]. }
    destruct H as (qs & ps & H1 & H2 & H3 & H4 & H5). exists (VMap qs), (PMap ps).
    assert (Hq : NoDup (map fst qs)).
    { rewrite H3. assert (Hinj : forall a b, In a (map fst l) -> In b (map fst l) -> key_to_cel a = key_to_cel b -> a = b).
      { intros a b Ha Hb Hab. apply in_map_iff in Ha as ([a' wa] & <- & Ha), Hb as ([b' wb] & <- & Hb). cbn in *.
        pose proof (conf_key_round _ _ (Hk _ _ Ha)) as Ra. rewrite Hab, (conf_key_round _ _ (Hk _ _ Hb)) in Ra. congruence. }
      clear - Hn Hinj. induction (map fst l) as [|x m IH]; [constructor|]. inversion Hn as [|? ? Hx Hn']; subst. cbn. constructor.
      - intros Hi. apply in_map_iff in Hi as (y & Hy & Hi). apply Hx. rewrite (Hinj x y); [exact Hi|now left|now right|congruence].
      - apply IH; [exact Hn'|]. intros a b Ha Hb. apply Hinj; now right. }
    split; [|split].
    - cbn [to_cel]. rewrite H1. now rewrite (read_map_fresh qs []).
    - cbn [to_proto]. rewrite Him. cbn [andb]. rewrite Hkd, Hl, Hkf, Hvf, H2. now rewrite (build_map_fresh ps []) by (cbn [app]; rewrite H4; exact Hn).
    - now constructor.
  Qed.
  Lemma back_list f l : fd_repeated f = true -> is_map p f = false -> (forall w, In w l -> back C p false f w) -> back C p true f (PList l).
  Proof.
    intros Hr Hm Hv. assert (H : exists qs ps, all_some (map (to_cel C p) l) = Some qs /\ all_some (map (fun x => to_proto C p false f x) qs) = Some ps /\ Forall2 (psame p) l ps).
    { induction l as [|w l IH]; [exists [], []; repeat split; constructor|]. destruct IH as (qs & ps & I1 & I2 & I3); [intros; apply Hv; now right|].
      destruct (Hv w (or_introl eq_refl)) as (v & w' & Hv1 & Hv2 & Hs). exists (v :: qs), (w' :: ps). cbn. rewrite Hv1, I1, Hv2, I2. repeat split. now constructor. }
    destruct H as (qs & ps & H1 & H2 & H3). exists (VList qs), (PList ps). cbn [to_cel to_proto]. rewrite H1, Hm, Hr. cbn [andb]. rewrite H2. repeat split. now constructor.
  Qed.
  Lemma back_time f fs s z : fd_kind f = FMsg t_timestamp -> (exists d, lookup p t_timestamp = Some d) -> or_zero (tget (tx "seconds") fs) (PI64 0) = PI64 s -> or_zero (tget (tx "nanos") fs) (PI32 0) = PI32 z ->
    (0 <= z < 10^9)%Z -> cv_time C s (Z.to_N z) = Some (s * 10^9 + z)%Z -> back C p false f (PMsg t_timestamp fs).
  Proof.
    change (10^9)%Z with 1000000000%Z. intros Hk [d Hl] Hs Hz Hb Ht. destruct (lookup_In _ _ _ Hl) as [Hd Hnm]. pose proof (g_time p G d Hd Hnm) as Hf.
    exists (VTimestamp (s * 1000000000 + z)), (PMsg t_timestamp [(tx "seconds", PI64 s); (tx "nanos", PI32 z)]). split; [|split].
    - cbn [to_cel]. rewrite Hl, text_eqb_refl. unfold timestamp_to_cel, field_by_name. rewrite Hf.
      change (match (match tget (tx "seconds") fs with Some w => Some w | None => Some (PI64 0) end), (match tget (tx "nanos") fs with Some w => Some w | None => Some (PI32 0) end) with
              | Some (PI64 s), Some (PI32 z) => option_map VTimestamp (cv_time C s (i32_as_u32 z)) | _, _ => None end = Some (VTimestamp (s * 1000000000 + z))).
      assert (Hi : i32_as_u32 z = Z.to_N z) by (unfold i32_as_u32; rewrite Z.mod_small; [reflexivity|lia]).
      rewrite <- Hi in Ht. destruct (tget (tx "seconds") fs); cbn in Hs; [rewrite Hs|injection Hs as <-]; (destruct (tget (tx "nanos") fs); cbn in Hz; [rewrite Hz|injection Hz as <-]); now rewrite Ht.
    - rewrite to_proto_one, Hk, Hl, text_eqb_refl. unfold timestamp_to_proto, field_by_name, set_field. rewrite Hf, Hnm.
      replace ((s * 1000000000 + z) / 1000000000)%Z with s by (rewrite Z.add_comm, Z.div_add, Z.div_small; lia).
      replace ((s * 1000000000 + z) mod 1000000000)%Z with z by (rewrite Z.add_comm, Z.mod_add, Z.mod_small; lia). reflexivity.
    - apply (ps_msg p _ d); [exact Hl|]. rewrite Hf. intros g [<-|[<-|[]]].
      + change (prel (psame p) (match tget (tx "seconds") fs with Some w => Some w | None => Some (PI64 0) end) (Some (PI64 s))).
        destruct (tget (tx "seconds") fs); cbn in Hs; rewrite Hs; repeat constructor.
      + change (prel (psame p) (match tget (tx "nanos") fs with Some w => Some w | None => Some (PI32 0) end) (Some (PI32 z))).
        destruct (tget (tx "nanos") fs); cbn in Hz; rewrite Hz; repeat constructor.
  Qed.

  Lemma sent_back b f w : sendable C p b f w -> In f (flat_map md_fields p) -> back C p b f w.
  Proof.
    intros H. induction H as [f e kf vf l Hm Hkf Hkn Hvf Hvn Hnd Hk Hv IH|f l Hr Hm Hv IH|f w Hr Hf IH|f w Hs|f fs s z Hk Hs Hz Hb Ht|f n d fs Hk Hn Hl Ho Hf IH]; intros Hin.
    - destruct (is_map_spec _ _ _ Hm) as (_ & _ & n & _ & Hl). destruct (lookup_In _ _ _ Hl) as [He' _].
      pose proof (g_names p G e He') as Hnn. apply (back_map f e kf vf); auto.
      + rewrite <- Hkn. now apply field_by_name_In.
      + rewrite <- Hvn. now apply field_by_name_In.
      + intros k v Hi. apply (IH k v Hi). apply in_flat_map. eauto.
    - apply back_list; [exact Hr|now apply not_map_spec|]. intros v Hi. now apply IH.
    - destruct (IH Hin) as (v & w' & Hx & Hy). exists v, w'. rewrite to_proto_singular by exact Hr. easy.
    - destruct (send_round C _ _ Hs) as (v & H1 & H2). exists v, w. rewrite to_proto_one. split; [now apply scalar_to_cel_to|split; [|constructor]].
      destruct (fd_kind f); try exact H2. discriminate H2.
    - apply in_flat_map in Hin as (d & Hd & Hfd). apply (back_time f fs s z); auto. exact (g_closed p G d f _ Hd Hfd Hk).
    - destruct (lookup_In _ _ _ Hl) as [Hd Hnm]. destruct (back_message d fs Hd Ho) as (L & m & H1 & H2 & H3).
      { intros g w Hg Hw. apply (IH g w Hg Hw). apply in_flat_map. eauto. }
      exists (VStruct n L), (PMsg n m). rewrite to_proto_one, Hk, Hl, H2. split; [|split; [reflexivity|now apply (ps_msg p n d)]].
      cbn [to_cel]. rewrite Hl. destruct Hn as (N1 & N2 & N3 & N4).
      rewrite (proj2 (text_eqb_neq n t_timestamp) N1), (proj2 (text_eqb_neq n t_struct) N2), (proj2 (text_eqb_neq n t_value) N3), (proj2 (text_eqb_neq n t_list) N4), H1. reflexivity.
  Qed.
End Back.

(** C87, proved for messages without wrapped types, undeclared enum numbers, or timestamps
    and floats outside the range of the other side *)
Theorem C87_what_was_read_can_be_sent_partial C p f w : good p -> enums_ok p -> entries_ok p -> oneofs_ok p -> cv_narrow C (cv_widen C 0%N) = Some 0%N ->
  In f (flat_map md_fields p) -> sendable C p true f w ->
  exists v w', to_cel C p w = Some v /\ to_proto C p true f v = Some w' /\ psame p w w'.
Proof. intros G He Hen Hoo H0 Hin Hs. exact (sent_back C p G He Hen Hoo H0 true f w Hs Hin). Qed.

(** a message of type T with a child, a tag and a timestamp can be sent on *)
Lemma demo_legal : enums_ok demo /\ entries_ok demo /\ oneofs_ok demo.
Proof.
  split; [|split].
  - intros d f l Hd Hf Hk. cbn in Hd. repeat destruct Hd as [<-|Hd]; cbn in Hf; try easy; repeat destruct Hf as [<-|Hf]; cbn in Hk; try easy. injection Hk as <-. exists 0%Z. easy.
  - intros e He Hm. cbn in He. repeat destruct He as [<-|He]; try easy; discriminate Hm.
  - intros d f Hd Hf Ho. cbn in Hd. repeat destruct Hd as [<-|Hd]; cbn in Hf; try easy; repeat destruct Hf as [<-|Hf]; cbn in Ho; try easy.
Qed.
Definition kid : pval := PMsg (tx "T") [(tx "a", PStr (tx "x")); (tx "id", PI32 (-7)); (tx "level", PEnum 1);
  (tx "tags", PMap [(MI32 4, PMsg (tx "U") [])]); (tx "when", PMsg (tx "google.protobuf.Timestamp") [(tx "nanos", PI32 5)])].
Example C87_ex : sendable Cd demo true (f_of "t" (FMsg (tx "T"))) (PMsg (tx "T") [(tx "kids", PList [kid; kid])]).
Proof.
  assert (Hnm : forall e, ~ map_entry demo (r_of "kids" (FMsg (tx "T"))) e) by (intros e (n & _ & [= <-] & Hl & He); injection Hl as <-; discriminate He).
  apply sd_whole; [reflexivity|]. eapply sd_msg; [reflexivity|now repeat split|reflexivity| |].
  - intros g h Hg _ (o & Ho & _). cbn in Hg. repeat destruct Hg as [<-|Hg]; try easy; try discriminate Ho; left; reflexivity.
  - intros g w Hg Hw. cbn in Hg. repeat destruct Hg as [<-|Hg]; try easy; vm_compute in Hw; try discriminate Hw; injection Hw as <-.
    apply sd_list; [reflexivity|exact Hnm|]. assert (Hkid : sendable Cd demo false (r_of "kids" (FMsg (tx "T"))) kid); [|now intros w [<-|[<-|[]]]].
    eapply sd_msg; [reflexivity|now repeat split|reflexivity| |].
    + intros g h Hg Hh (o & Ho1 & Ho2 & Hne). cbn in Hg, Hh. repeat destruct Hg as [<-|Hg]; try easy; try discriminate Ho1; repeat destruct Hh as [<-|Hh]; try easy; try discriminate Ho2; (left; reflexivity) || (right; reflexivity).
    + intros g w Hg Hw. cbn in Hg. repeat destruct Hg as [<-|Hg]; try easy; vm_compute in Hw; try discriminate Hw; injection Hw as <-.
      * apply sd_whole; [reflexivity|]. apply sd_one. split; [apply cs_i32; [now left|easy]|easy].
      * eapply (sd_map _ _ _ _ (f_of "key" FInt32) (f_of "value" (FMsg (tx "U")))); [exists (tx "T.Tags"); repeat split|now left|reflexivity|right; now left|reflexivity|repeat constructor; easy| |].
        -- intros k w [H|[]]; injection H as <- <-. apply ck_i32; [now left|easy].
        -- intros k w [H|[]]; injection H as <- <-. eapply sd_msg; [reflexivity|now repeat split|reflexivity| |].
           ++ intros g h Hg _ _. now left.
           ++ intros g w _ Hw. discriminate Hw.
      * apply sd_whole; [reflexivity|]. apply sd_one. split; [constructor|easy].
      * apply sd_whole; [reflexivity|]. apply (sd_time Cd demo _ _ 0 5); [reflexivity|reflexivity|reflexivity|easy|reflexivity].
      * apply sd_whole; [reflexivity|]. apply sd_one. split; [constructor; easy|]. split; [easy|]. intros l z [= <-] [= <-]. cbn. tauto.
Qed.

(** C87 fails for a wrapped value: the expression sees a string, which the field rejects *)
Theorem C87_wrapped_value_is_rejected_refuted : exists f w v, In f (flat_map md_fields demo) /\ conf conf_key demo true f w /\
  to_cel Cd demo w = Some v /\ to_proto Cd demo true f v = None.
Proof.
  exists (f_of "any" (FMsg (tx "google.protobuf.Value"))), (PMsg (tx "google.protobuf.Value") [(tx "string_value", PStr (tx "s"))]), (VString (tx "s")).
  split; [cbn; tauto|]. split; [|split; reflexivity]. apply conf_whole; [reflexivity|]. eapply conf_msg; [reflexivity|reflexivity| | |].
  - intros k w Hk. apply (aget_In text_eqb text_eqb_eq) in Hk as [Hk|[]]. injection Hk as <- <-. exists (mkF (tx "string_value") FString false true (Some 0%N)). split; [now left|reflexivity].
  - intros g w [<-|[]] Hw. vm_compute in Hw. injection Hw as <-. apply conf_whole; [reflexivity|]. apply conf_one. constructor.
  - intros g h [<-|[]] [<-|[]] (o & _ & _ & Hne). now destruct Hne.
Qed.
(** C87 fails for an enum number the schema does not declare, which protobuf lets a newer server send *)
Theorem C87_new_enum_number_is_rejected_refuted : exists f w v, In f (flat_map md_fields demo) /\ conf conf_key demo true f w /\
  to_cel Cd demo w = Some v /\ to_proto Cd demo true f v = None.
Proof.
  exists (f_of "level" (FEnum [0%Z; 1%Z])), (PEnum 2), (VInt 2). split; [cbn; tauto|]. split; [|split; reflexivity].
  apply conf_whole; [reflexivity|]. apply conf_one. constructor. easy.
Qed.

(** * A pool with the standard types, for C85 and C86 *)
Definition wkt : schema :=
  [ mkM (tx "M") [f_of "data" (FMsg (tx "google.protobuf.Struct")); f_of "when" (FMsg (tx "google.protobuf.Timestamp")); f_of "n" FInt64; r_of "list" FString] false;
    mkM (tx "google.protobuf.Timestamp") [f_of "seconds" FInt64; f_of "nanos" FInt32] false;
    mkM (tx "google.protobuf.Struct") [r_of "fields" (FMsg (tx "google.protobuf.Struct.FieldsEntry"))] false;
    mkM (tx "google.protobuf.Struct.FieldsEntry") [f_of "key" FString; f_of "value" (FMsg (tx "google.protobuf.Value"))] true;
    mkM (tx "google.protobuf.Value") [one_of "null_value" (FEnum [0%Z]); one_of "number_value" FDouble; one_of "string_value" FString; one_of "bool_value" FBool;
                   one_of "struct_value" (FMsg (tx "google.protobuf.Struct")); one_of "list_value" (FMsg (tx "google.protobuf.ListValue"))] false;
    mkM (tx "google.protobuf.ListValue") [r_of "values" (FMsg (tx "google.protobuf.Value"))] false ].
Lemma wkt_good : good wkt.
Proof.
  constructor.
  - intros d f n Hd Hf Hk. cbn in Hd. repeat destruct Hd as [<-|Hd]; cbn in Hf; try easy; repeat destruct Hf as [<-|Hf]; cbn in Hk; try easy; injection Hk as <-; vm_compute; eauto.
  - intros d Hd. cbn in Hd. repeat destruct Hd as [<-|Hd]; try easy; cbn; repeat (constructor; [cbn; repeat (intros [H|H]; [discriminate H|revert H]); easy|]); constructor.
  - intros d Hd Hn. cbn in Hd. repeat destruct Hd as [<-|Hd]; try easy; discriminate Hn.
Qed.
Lemma wkt_standard : standard wkt.
Proof.
  constructor; intros d Hd Hn; cbn in Hd; repeat destruct Hd as [<-|Hd]; try easy; try discriminate Hn.
  eexists. split; [reflexivity|]. eexists. split; reflexivity.
Qed.
Definition str_value : pval := PMsg (tx "google.protobuf.Value") [(tx "string_value", PStr (tx "s"))].
Definition reply_m : list (text * pval) :=
  [(tx "data", PMsg (tx "google.protobuf.Struct") [(tx "fields", PMap [(MStr (tx "k"), str_value)])]);
   (tx "when", PMsg (tx "google.protobuf.Timestamp") [(tx "seconds", PI64 9)]); (tx "list", PList [PStr (tx "a"); PStr []])].
Ltac keys := intros k w Hk; apply (aget_In text_eqb text_eqb_eq) in Hk; cbn in Hk; repeat destruct Hk as [Hk|Hk]; try easy; injection Hk as <- <-;
  match goal with |- exists g, In g ?l /\ fd_name g = ?k => let r := eval vm_compute in (find (fun g => text_eqb (fd_name g) k) l) in match r with Some ?g => exists g end end; (split; [vm_compute; repeat (first [left; reflexivity|right])|reflexivity]).
Ltac each g w Hg Hw := intros g w Hg Hw; cbn in Hg; repeat destruct Hg as [<-|Hg]; try easy; vm_compute in Hw; try discriminate Hw; injection Hw as <-.
Ltac lone := intros g h Hg Hh Hr; destruct Hr as (o & Ho & Ho' & Hne); cbn in Hg, Hh; repeat destruct Hg as [<-|Hg]; try easy; try discriminate Ho; try (left; reflexivity); repeat destruct Hh as [<-|Hh]; try easy; try discriminate Ho'; try (right; reflexivity); exfalso; now apply Hne.
Lemma str_value_conf f : fd_kind f = FMsg (tx "google.protobuf.Value") -> conf conf_key wkt false f str_value.
Proof.
  intros Hkind. eapply conf_msg; [exact Hkind|reflexivity|keys| |lone]. each g w Hg Hw. apply conf_whole; [reflexivity|]. apply conf_one. constructor.
Qed.
Lemma reply_m_conforms d : lookup wkt (tx "M") = Some d -> conforms conf_key wkt d reply_m.
Proof.
  intros [= <-]. split; [keys|]. split; [|lone]. each g w Hg Hw.
  - apply conf_whole; [reflexivity|]. eapply conf_msg; [reflexivity|reflexivity|keys| |lone]. each g w Hg Hw.
    eapply (conf_map _ _ _ _ (f_of "key" FString) (f_of "value" (FMsg (tx "google.protobuf.Value")))); [exists (tx "google.protobuf.Struct.FieldsEntry"); repeat split|now left|reflexivity|right; now left|reflexivity|repeat constructor; easy| |].
    + intros k w [H|[]]; injection H as <- <-. constructor.
    + intros k w [H|[]]; injection H as <- <-. now apply str_value_conf.
  - apply conf_whole; [reflexivity|]. eapply conf_msg; [reflexivity|reflexivity|keys| |lone]. each g w Hg Hw. apply conf_whole; [reflexivity|]. apply conf_one. apply cs_i64; [now left|easy].
  - apply conf_list; [reflexivity| |].
    + intros e (n & _ & H & _). discriminate H.
    + intros w [<-|[<-|[]]]; apply conf_one; constructor.
Qed.
Example C85_ex : good wkt /\ standard wkt /\ (exists d, lookup wkt (tx "M") = Some d /\ conforms conf_key wkt d reply_m) /\ (forall k w, In (k, w) reply_m -> times Ct w) /\
  exists v, message_to_cel Ct wkt (tx "M") reply_m = Some v /\ v =
    VStruct (tx "M") [(tx "data", VMap [(KStr (tx "k"), VString (tx "s"))]); (tx "when", VTimestamp 9000000000); (tx "n", VInt 0); (tx "list", VList [VString (tx "a"); VString []])].
Proof.
  split; [exact wkt_good|]. split; [exact wkt_standard|]. split; [eexists; split; [reflexivity|now apply reply_m_conforms]|]. split; [|eexists; split; reflexivity].
  assert (Hs : forall s, times Ct (PStr s)) by (intros s; now apply times_scalar).
  assert (Hv : times Ct str_value) by (apply times_msg; [intros k w [H|[]]; injection H as <- <-; apply Hs|intros H; discriminate H]).
  intros k w [H|[H|[H|[]]]]; injection H as <- <-.
  - apply times_msg; [|intros H; discriminate H]. intros k w [H|[]]; injection H as <- <-. apply times_map. intros k w [H|[]]; injection H as <- <-. exact Hv.
  - apply times_msg; [intros k w [H|[]]; injection H as <- <-; now apply times_scalar|]. intros _ s z Hs' Hz. injection Hs' as <-. injection Hz as <-. discriminate.
  - apply times_list. intros w [<-|[<-|[]]]; apply Hs.
Qed.
(** the unset number and the list have their registered types *)
Example C86_ex : exists L, message_to_cel Ct wkt (tx "M") reply_m = Some (VStruct (tx "M") L) /\ typed wkt (f_of "n" FInt64) CInt /\ ~ unwrapped (f_of "n" FInt64) /\
  tget (tx "n") L = Some (VInt 0) /\ typed wkt (r_of "list" FString) CList /\ ~ unwrapped (r_of "list" FString).
Proof.
  eexists. split; [reflexivity|]. split; [apply ty_int; [reflexivity|cbn; tauto]|]. split; [intros (_ & n & H & _); discriminate H|]. split; [reflexivity|].
  split; [apply ty_list; [reflexivity|intros n d H; discriminate H]|intros (H & _); discriminate H].
Qed.

Print Assumptions C85_replies_can_be_read_partial.
Print Assumptions C85_bad_timestamp_hides_reply_refuted.
Print Assumptions C86_fields_have_their_registered_type_partial.
Print Assumptions C86_wrapped_field_has_another_type_refuted.
Print Assumptions C87_what_was_read_can_be_sent_partial.
Print Assumptions C87_wrapped_value_is_rejected_refuted.
Print Assumptions C87_new_enum_number_is_rejected_refuted.
