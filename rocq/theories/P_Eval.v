(** How the data an expression needs is put together. *)
From Coq Require Import String List NArith ZArith Bool Lia Arith.
From Verif Require Import Base Value Headers AttrPath Ctx CelProps CelEval Tasks P_Frame P_Plan P_Route Prop_Paths.
Import ListNotations.
Open Scope list_scope.

(** * Reads within one evaluation agree *)
Record same_reads (E : env) (c c' : ctx) : Prop := {
  sr_log : c_log c' = c_log c; sr_vals : c_vals c' = c_vals c; sr_res : c_res c' = c_res c;
  sr_reqb : c_reqb c' = c_reqb c; sr_respb : c_respb c' = c_respb c;
  sr_read : forall p, Prop_Paths.plain p -> fst (read_attr E p c') = fst (read_attr E p c) }.
Lemma sr_refl E c : same_reads E c c. Proof. now constructor. Qed.
Lemma sr_trans E a b c : same_reads E a b -> same_reads E b c -> same_reads E a c.
Proof. intros [] []. constructor; try congruence. intros p Hp. now rewrite sr_read1, sr_read0. Qed.
Lemma sr_put E p v c : Prop_Paths.plain p -> cache_get p c = None -> fetch E (c_log c) p = HOk v -> same_reads E c (cache_put p v c).
Proof.
  intros Hp H1 H2. constructor; try reflexivity. intros q Hq. unfold read_attr. change (c_log (cache_put p v c)) with (c_log c).
  unfold cache_get, cache_put in *. cbn [with_cache c_cache].
  destruct (text_eq_dec (path_show q) (path_show p)) as [He|Hn].
  - apply path_show_inj in He as ->; [|assumption..]. rewrite H1, H2, (aget_aset_same text_eqb text_eqb_eq). reflexivity.
  - rewrite (aget_aset_other text_eqb text_eqb_eq) by assumption. now destruct (tget (path_show q) (c_cache c)), (fetch E (c_log c) q).
Qed.
Lemma read_attr_sr E p c r c' : Prop_Paths.plain p -> read_attr E p c = (r, c') -> same_reads E c c'.
Proof.
  intros Hp. unfold read_attr. destruct (cache_get p c) eqn:Hg; [intros [= <- <-]; apply sr_refl|].
  destruct (fetch E (c_log c) p) eqn:Hf; intros [= <- <-]; try apply sr_refl. now apply sr_put.
Qed.
Lemma ensure_sr E ps c : Forall Prop_Paths.plain ps -> same_reads E c (ensure_attributes E ps c).
Proof.
  intros Hf. unfold ensure_attributes. revert c. induction Hf as [|p ps Hp _ IH]; intro c; cbn [fold_left]; [apply sr_refl|].
  eapply sr_trans; [|apply IH]. unfold populate. destruct (cache_get p c) eqn:Hg; [apply sr_refl|]. destruct (fetch E (c_log c) p) eqn:Hf; try apply sr_refl. now apply sr_put.
Qed.
Lemma attr_get_sr E a c r c' : Prop_Paths.plain (at_path a) -> attr_get E a c = (r, c') -> same_reads E c c'.
Proof.
  intros Hp. unfold attr_get. destruct (read_attr E (at_path a) c) as [r1 c1] eqn:H. apply read_attr_sr in H; [|exact Hp].
  destruct r1; intros [= <- <-]; exact H.
Qed.
Lemma attr_get_same E a c c' : Prop_Paths.plain (at_path a) -> same_reads E c c' -> fst (attr_get E a c') = fst (attr_get E a c).
Proof.
  intros Hp [_ _ _ _ _ H]. specialize (H (at_path a) Hp). unfold attr_get. destruct (read_attr E (at_path a) c') as [r' c1], (read_attr E (at_path a) c) as [r c2].
  cbn [fst] in H. subst r'. now destruct r.
Qed.

(** * The value of a tree of attributes, without threading the cache *)
Definition cur (prefix key : text) : text := match prefix with [] => key | _ => prefix ++ dot :: key end.
Definition known_root (c : ctx) (prefix key : text) : bool :=
  negb ((match prefix with [] => true | _ => false end) && negb (is_host_root key) && negb (val_has_prefix (key ++ [dot]) c)).
Definition pgo (val : text -> token -> rd value) (c : ctx) (prefix : text) :=
  fix go (l : list (text * token)) (out : list (mkey * value)) {struct l} : rd value :=
    match l with
    | [] => RAvail (VMap out)
    | (key, tk) :: l' =>
        match val_get (cur prefix key) c with
        | Some v => go l' (out ++ [(KStr key, v)])
        | None =>
            if val_pending (cur prefix key) c then RPending
            else if known_root c prefix key then
              match val (cur prefix key) tk with
              | RAvail v => go l' (out ++ [(KStr key, v)])
              | RPending => RPending
              | RErr => RErr
              end
            else go l' out
        end
    end.
Fixpoint ptok (E : env) (c : ctx) (prefix : text) (t : token) {struct t} : rd value :=
  match t with
  | TokVal a => fst (attr_get E a c)
  | TokNode l => pgo (fun p t => ptok E c p t) c prefix l []
  end.
Lemma val_get_same E c c' p : same_reads E c c' -> val_get p c' = val_get p c.
Proof. intros []. unfold val_get. now rewrite sr_vals0. Qed.
Lemma val_pending_same E c c' p : same_reads E c c' -> val_pending p c' = val_pending p c.
Proof. intros H. unfold val_pending. rewrite (val_get_same _ _ _ _ H), (sr_res _ _ _ H). reflexivity. Qed.
Lemma known_root_same E c c' p k : same_reads E c c' -> known_root c' p k = known_root c p k.
Proof. intros H. unfold known_root, val_has_prefix. now rewrite (sr_vals _ _ _ H), (sr_res _ _ _ H). Qed.
Inductive wf_tok : token -> Prop :=
| wf_val a : Prop_Paths.plain (at_path a) -> wf_tok (TokVal a)
| wf_node l : NoDup (map fst l) -> (forall t tk, In (t, tk) l -> wf_tok tk) -> wf_tok (TokNode l).
Lemma tok_value_pure E c0 t : wf_tok t -> forall prefix c r c', same_reads E c0 c -> tok_value E prefix t c = (r, c') -> r = ptok E c0 prefix t /\ same_reads E c0 c'.
Proof.
  induction t as [l IH|a] using token_ind'; intros Hw prefix c r c' Hs; cbn [tok_value ptok]; inversion Hw as [? Hpl|? _ Hsub]; subst.
  - clear Hw. generalize (@nil (mkey * value)) as out0. revert c Hs.
    induction IH as [|[key tk] l Ht Hl IHl]; intros c Hs out; cbn [tok_go pgo].
    + intros [= <- <-]. now split.
    + cbn [snd] in Ht. specialize (Ht (Hsub _ _ (or_introl eq_refl))). specialize (IHl (fun t tk Hi => Hsub t tk (or_intror Hi))). change (match prefix with [] => key | _ :: _ => prefix ++ dot :: key end) with (cur prefix key).
      rewrite (val_get_same _ _ _ _ Hs), (val_pending_same _ _ _ _ Hs).
      destruct (val_get (cur prefix key) c0); [apply IHl; exact Hs|].
      destruct (val_pending (cur prefix key) c0); [intros [= <- <-]; now split|].
      pose proof (known_root_same _ _ _ prefix key Hs) as Hk. unfold known_root at 1 in Hk.
      destruct (_ && _ && _); cbn [negb] in Hk; rewrite <- Hk; [apply IHl; exact Hs|].
      destruct (tok_value E (cur prefix key) tk c) as [r1 c1] eqn:H. apply Ht in H as [<- H]; [|exact Hs].
      destruct r1 as [|v|]; try (intros [= <- <-]; now split). apply IHl. exact H.
  - intros H. pose proof (attr_get_sr _ _ _ _ _ Hpl H) as H2. split; [|eapply sr_trans; eauto]. rewrite <- (attr_get_same _ _ _ _ Hpl Hs), H. reflexivity.
Qed.

(** * Where a walk down the tree stops *)
Definition free (c : ctx) (p : text) : Prop := val_get p c = None /\ val_pending p c = false.
Inductive stops (E : env) (c : ctx) : text -> list (text * token) -> list text -> rd value -> Prop :=
| st_stored pre l t tk v : tget t l = Some tk -> val_get (cur pre t) c = Some v -> stops E c pre l [t] (RAvail v)
| st_pending pre l t tk : tget t l = Some tk -> val_pending (cur pre t) c = true -> stops E c pre l [t] RPending
| st_leaf pre l t a : tget t l = Some (TokVal a) -> free c (cur pre t) -> known_root c pre t = true -> stops E c pre l [t] (fst (attr_get E a c))
| st_down pre l t sub q r : tget t l = Some (TokNode sub) -> free c (cur pre t) -> known_root c pre t = true ->
    stops E c (cur pre t) sub q r -> stops E c pre l (t :: q) r.
(** the value found in nested maps *)
Fixpoint vlook (q : list text) (v : value) : option value :=
  match q with
  | [] => Some v
  | t :: q' => match v with VMap m => match mget t m with Some x => vlook q' x | None => None end | _ => None end
  end.

Lemma pending_none c p : val_pending p c = true -> val_get p c = None.
Proof. unfold val_pending. now destruct (val_get p c). Qed.
Lemma mget_app k a b : mget k (a ++ b) = match mget k a with Some v => Some v | None => mget k b end.
Proof. unfold mget. induction a as [|[k' v] a IH]; [reflexivity|]. cbn [app aget]. destruct (mkey_eqb (KStr k) k'); [reflexivity|exact IH]. Qed.
Lemma mget_KStr k k' (v : value) l : mget k ((KStr k', v) :: l) = if text_eqb k k' then Some v else mget k l.
Proof. reflexivity. Qed.
Definition shown (c : ctx) (pre t : text) : Prop := val_get (cur pre t) c <> None \/ known_root c pre t = true.
Lemma ptok_stops E c t : wf_tok t -> forall pre l, t = TokNode l ->
  match ptok E c pre t with
  | RAvail v => exists m, v = VMap m /\ (forall k x, In (k, x) m -> exists t tk, k = KStr t /\ In (t, tk) l /\ shown c pre t) /\ NoDup (map fst m) /\
                  forall q r, stops E c pre l q r -> exists x, r = RAvail x /\ vlook q v = Some x
  | RPending => exists q, stops E c pre l q RPending
  | RErr => exists q, stops E c pre l q RErr
  end.
Proof.
  induction t as [l0 IH|a] using token_ind'; intros Hw pre l; [|discriminate]. intros [= ->]. inversion Hw as [|? Hnd Hsub]; subst. cbn [ptok].
  (* generalise over what was already looked at *)
  enough (K : forall done rest out, l = done ++ rest ->
    NoDup (map fst out) -> (forall k x, In (k, x) out -> exists t tk, k = KStr t /\ In (t, tk) done /\ shown c pre t) ->
    (forall t tk q r, In (t, tk) done -> stops E c pre l (t :: q) r -> exists x, r = RAvail x /\ vlook (t :: q) (VMap out) = Some x) ->
    match pgo (fun p t => ptok E c p t) c pre rest out with
    | RAvail v => exists m, v = VMap m /\ (forall k x, In (k, x) m -> exists t tk, k = KStr t /\ In (t, tk) l /\ shown c pre t) /\ NoDup (map fst m) /\
                  forall q r, stops E c pre l q r -> exists x, r = RAvail x /\ vlook q v = Some x
    | RPending => exists q, stops E c pre l q RPending
    | RErr => exists q, stops E c pre l q RErr
    end).
  { apply (K [] l []); try easy. constructor. }
  intros done rest. revert done. induction rest as [|[key tk] rest IHr]; intros done out Hl Hno Hout Hdone.
  - cbn [pgo]. rewrite app_nil_r in Hl. subst done. exists out. split; [reflexivity|]. split; [exact Hout|]. split; [exact Hno|].
    intros q r Hs. destruct q as [|t q]; [inversion Hs|]. assert (Hi : exists tk, In (t, tk) l) by (inversion Hs; subst; match goal with H : tget t l = Some ?x |- _ => exists x; now apply (aget_In text_eqb text_eqb_eq) in H end).
    destruct Hi as (tk & Hi). eapply Hdone; eauto.
  - cbn [pgo].
    assert (Hin : In (key, tk) l) by (rewrite Hl; apply in_or_app; right; now left).
    assert (Hget : tget key l = Some tk) by (now apply In_tget).
    assert (Hnk : ~ In key (map fst done)).
    { rewrite Hl, map_app in Hnd. cbn [map fst] in Hnd. apply NoDup_remove_2 in Hnd. intros H. apply Hnd. apply in_or_app. now left. }
    assert (Hmk : mget key out = None).
    { destruct (mget key out) as [x|] eqn:Hx; [|reflexivity]. exfalso. unfold mget in Hx. apply (aget_In mkey_eqb mkey_eqb_eq) in Hx. apply Hout in Hx as (t & tk' & [= <-] & Hx & _). apply Hnk. apply in_map_iff. now exists (key, tk'). }
    (* one more entry shown with value [v] *)
    assert (Step : forall v, shown c pre key ->
      (forall q r, stops E c pre l (key :: q) r -> exists x, r = RAvail x /\ vlook q v = Some x) ->
      match pgo (fun p t => ptok E c p t) c pre rest (out ++ [(KStr key, v)]) with
      | RAvail v => exists m, v = VMap m /\ (forall k x, In (k, x) m -> exists t tk, k = KStr t /\ In (t, tk) l /\ shown c pre t) /\ NoDup (map fst m) /\
                  forall q r, stops E c pre l q r -> exists x, r = RAvail x /\ vlook q v = Some x
      | RPending => exists q, stops E c pre l q RPending
      | RErr => exists q, stops E c pre l q RErr
      end).
    { intros v Hsh Hv. apply (IHr (done ++ [(key, tk)])).
      - now rewrite <- app_assoc.
      - rewrite map_app. cbn [map fst]. apply NoDup_app_intro; [exact Hno|repeat constructor; easy|]. intros k Hk [<-|[]]. apply in_map_iff in Hk as ((k & x) & Hk & Hi). cbn in Hk. subst k.
        apply Hout in Hi as (t & tk' & [= <-] & Hi & _). apply Hnk. apply in_map_iff. now exists (key, tk').
      - intros k x Hi. apply in_app_or in Hi as [Hi|[[= <- <-]|[]]].
        + apply Hout in Hi as (t & tk' & H1 & H2 & H3). exists t, tk'. split; [exact H1|]. split; [apply in_or_app; now left|exact H3].
        + exists key, tk. split; [reflexivity|]. split; [apply in_or_app; right; now left|exact Hsh].
      - intros t tk' q r Hi Hs. apply in_app_or in Hi as [Hi|[[= <- <-]|[]]].
        + destruct (Hdone _ _ _ _ Hi Hs) as (x & -> & Hx). exists x. split; [reflexivity|]. cbn [vlook] in *. rewrite mget_app. destruct (mget t out); [exact Hx|discriminate].
        + destruct (Hv _ _ Hs) as (x & -> & Hx). exists x. split; [reflexivity|]. cbn [vlook]. rewrite mget_app, Hmk, mget_KStr, text_eqb_refl. exact Hx. }
    destruct (val_get (cur pre key) c) as [v|] eqn:Hv.
    { apply Step; [left; congruence|]. intros q r Hs. inversion Hs as [? ? ? tk1 v1 G1 G2|? ? ? tk1 G1 G2|? ? ? a G1 [G2 _]|? ? ? sub ? ? G1 [G2 _]]; subst; try congruence.
      - exists v1. split; [reflexivity|]. cbn. congruence.
      - apply pending_none in G2. congruence. }
    destruct (val_pending (cur pre key) c) eqn:Hp; [exists [key]; eapply st_pending; eauto|].
    destruct (known_root c pre key) eqn:Hk.
    + destruct tk as [sub|a].
      * rewrite Forall_forall in IH. specialize (IH _ Hin (Hsub _ _ Hin) (cur pre key) sub eq_refl). cbn [snd] in IH.
        destruct (ptok E c (cur pre key) (TokNode sub)) as [|v|].
        -- destruct IH as (q & IH). exists (key :: q). eapply st_down; eauto. now split.
        -- destruct IH as (m & -> & _ & _ & IH). apply Step; [now right|]. intros q r Hs.
           inversion Hs as [? ? ? tk1 v1 G1 G2|? ? ? tk1 G1 G2|? ? ? a G1 [G2 _]|? ? ? sub' ? ? G1 [G2 _] G3 G4]; subst; try congruence.
           rewrite Hget in G1. injection G1 as <-. exact (IH _ _ G4).
        -- destruct IH as (q & IH). exists (key :: q). eapply st_down; eauto. now split.
      * cbn [ptok]. pose proof (st_leaf E c pre l key a Hget (conj Hv Hp) Hk) as Hlf. destruct (fst (attr_get E a c)) as [|v|] eqn:Ha; [now exists [key]| |now exists [key]].
        apply Step; [now right|]. intros q r Hs.
        inversion Hs as [? ? ? tk1 v1 G1 G2|? ? ? tk1 G1 G2|? ? ? a' G1 [G2 _]|? ? ? sub' ? ? G1 [G2 _] G3 G4]; subst; try congruence.
        rewrite Hget in G1. injection G1 as <-. exists v. split; [exact Ha|reflexivity].
    + apply (IHr (done ++ [(key, tk)])).
      * now rewrite <- app_assoc.
      * exact Hno.
      * intros k x Hi. apply Hout in Hi as (t & tk' & H1 & H2 & H3). exists t, tk'. split; [exact H1|]. split; [apply in_or_app; now left|exact H3].
      * intros t tk' q r Hi Hs. apply in_app_or in Hi as [Hi|[[= <- <-]|[]]]; [eapply Hdone; eauto|].
        exfalso. inversion Hs as [? ? ? tk1 v1 G1 G2|? ? ? tk1 G1 G2|? ? ? a' G1 [G2 _]|? ? ? sub' ? ? G1 [G2 _] G3 G4]; subst; congruence.
Qed.

(** every entry of the map is a stored value or the value of its subtree *)
Lemma pgo_entries val c pre l : forall out v, pgo val c pre l out = RAvail v ->
  exists m, v = VMap m /\ forall k w, In (k, w) m -> In (k, w) out \/ exists t tk, k = KStr t /\ In (t, tk) l /\ (val_get (cur pre t) c = Some w \/ val (cur pre t) tk = RAvail w).
Proof.
  induction l as [|[key tk] l IH]; intros out v; cbn [pgo].
  - intros [= <-]. exists out. split; [reflexivity|]. now left.
  - assert (K : forall o, pgo val c pre l o = RAvail v -> (forall k w, In (k, w) o -> In (k, w) out \/ k = KStr key /\ (val_get (cur pre key) c = Some w \/ val (cur pre key) tk = RAvail w)) ->
      exists m, v = VMap m /\ forall k w, In (k, w) m -> In (k, w) out \/ exists t tk', k = KStr t /\ In (t, tk') ((key, tk) :: l) /\ (val_get (cur pre t) c = Some w \/ val (cur pre t) tk' = RAvail w)).
    { intros o Ho Hk. destruct (IH _ _ Ho) as (m & -> & Hm). exists m. split; [reflexivity|]. intros k w Hi. destruct (Hm _ _ Hi) as [Hi'|(t & tk' & -> & H1 & H2)].
      - destruct (Hk _ _ Hi') as [H|[-> H]]; [now left|]. right. exists key, tk. split; [reflexivity|]. split; [now left|exact H].
      - right. exists t, tk'. split; [reflexivity|]. split; [now right|exact H2]. }
    destruct (val_get (cur pre key) c) as [x|] eqn:Hx.
    + intros H. apply (K _ H). intros k w Hi. apply in_app_or in Hi as [Hi|[[= <- <-]|[]]]; [now left|right; split; [reflexivity|now left]].
    + destruct (val_pending (cur pre key) c); [discriminate|]. destruct (known_root c pre key); [|intros H; apply (K _ H); now left].
      destruct (val (cur pre key) tk) as [|x|] eqn:Hv; try discriminate.
      intros H. apply (K _ H). intros k w Hi. apply in_app_or in Hi as [Hi|[[= <- <-]|[]]]; [now left|right; split; [reflexivity|now right]].
Qed.

(** * The tree of a list of attributes *)
Fixpoint kind (m : list (text * token)) (q : path) : option (option attr) :=
  match q with
  | [] => None
  | t :: q' => match tget t m with
               | None => None
               | Some (TokVal a) => match q' with [] => Some (Some a) | _ => None end
               | Some (TokNode sub) => match q' with [] => Some None | _ => kind sub q' end
               end
  end.
Fixpoint blocked_at (p : path) (m : list (text * token)) : bool :=
  match p with
  | [] | [_] => false
  | t :: p' => match tget t m with Some (TokVal _) => true | Some (TokNode sub) => blocked_at p' sub | None => false end
  end.
(** proper, nonempty prefix *)
Definition on_way (q p : path) : Prop := q <> [] /\ exists r, r <> [] /\ p = q ++ r.
Lemma aset_same_id {V} k (v : V) m : tget k m = Some v -> tset k v m = m.
Proof.
  induction m as [|[k' v'] m IH]; [discriminate|]. cbn [aget aset]. destruct (text_eqb k k') eqn:He.
  - apply text_eqb_eq in He. subst k'. now intros [= ->].
  - intros H. now rewrite IH.
Qed.
Lemma tok_insert_cons t u p a m : tok_insert (t :: u :: p) a m =
  match tget t m with
  | Some (TokVal _) => m
  | Some (TokNode sub) => tset t (TokNode (tok_insert (u :: p) a sub)) m
  | None => tset t (TokNode (tok_insert (u :: p) a [])) m
  end.
Proof. reflexivity. Qed.
Lemma ins_blocked a p : forall m, blocked_at p m = true -> tok_insert p a m = m.
Proof.
  induction p as [|t p IH]; [discriminate|]. intros m. destruct p as [|u p]; [discriminate|]. rewrite tok_insert_cons. cbn [blocked_at].
  destruct (tget t m) as [[sub|b]|] eqn:Ht; intros H; try discriminate; [|reflexivity].
  rewrite IH by exact H. now apply aset_same_id.
Qed.
Lemma kind_blocked p : forall m, blocked_at p m = true <-> exists q a, on_way q p /\ kind m q = Some (Some a).
Proof.
  induction p as [|t p IH]; intros m.
  - split; [discriminate|]. intros (q & a & (Hq & r & Hr & H) & _). symmetry in H. apply app_eq_nil in H as [-> _]. easy.
  - destruct p as [|u p].
    + split; [discriminate|]. intros (q & a & (Hq & r & Hr & H) & _). destruct q as [|x q]; [easy|]. injection H as _ H. symmetry in H. apply app_eq_nil in H as [_ ->]. easy.
    + cbn [blocked_at]. split.
      * destruct (tget t m) as [[sub|b]|] eqn:Ht; try discriminate.
        -- intros H. apply IH in H as (q & a & (Hq & r & Hr & ->) & Hk). exists (t :: q), a. split; [split; [easy|now exists r]|]. cbn [kind]. rewrite Ht. now destruct q.
        -- intros _. exists [t], b. split; [split; [easy|now exists (u :: p)]|]. cbn [kind]. now rewrite Ht.
      * intros (q & a & (Hq & r & Hr & H) & Hk). destruct q as [|x q]; [easy|]. injection H as <- H. cbn [kind] in Hk. destruct (tget t m) as [[sub|b]|]; try discriminate; [|reflexivity].
        destruct q as [|y q]; [discriminate|]. apply IH. exists (y :: q), a. split; [split; [easy|now exists r]|exact Hk].
Qed.
Lemma ins_kind a p : forall m q, p <> [] -> blocked_at p m = false -> kind m p <> Some None ->
  (q = p /\ kind (tok_insert p a m) q = Some (Some a)) \/
  (on_way q p /\ kind (tok_insert p a m) q = Some None) \/
  (q <> p /\ ~ on_way q p /\ kind (tok_insert p a m) q = kind m q).
Proof.
  induction p as [|t p IH]; intros m q Hp Hb Hk; [easy|]. destruct q as [|x q].
  { right. right. split; [discriminate|]. split; [intros [H _]; easy|reflexivity]. }
  destruct (text_eq_dec x t) as [->|Hx].
  2:{ right. right. split; [congruence|]. split; [intros (_ & r & _ & H); cbn in H; congruence|]. destruct p as [|u p]; [cbn [tok_insert kind]; now rewrite (aget_aset_other text_eqb text_eqb_eq) by assumption|]. rewrite tok_insert_cons. cbn [kind].
      destruct (tget t m) as [[sub|b]|]; rewrite ?(aget_aset_other text_eqb text_eqb_eq) by assumption; reflexivity. }
  destruct p as [|u p].
  - cbn [tok_insert kind]. rewrite (aget_aset_same text_eqb text_eqb_eq). destruct q as [|y q]; [now left|]. right. right. split; [discriminate|].
    split; [intros (_ & r & _ & H); discriminate|]. cbn [kind] in Hk. destruct (tget t m) as [[sub|b]|]; [now destruct Hk|reflexivity..].
  - cbn [blocked_at] in Hb. cbn [kind] in Hk.
    assert (K : forall sub, blocked_at (u :: p) sub = false -> kind sub (u :: p) <> Some None -> (forall y q', kind m (t :: y :: q') = kind sub (y :: q')) ->
       tok_insert (t :: u :: p) a m = tset t (TokNode (tok_insert (u :: p) a sub)) m ->
       (t :: q = t :: u :: p /\ kind (tok_insert (t :: u :: p) a m) (t :: q) = Some (Some a)) \/
       (on_way (t :: q) (t :: u :: p) /\ kind (tok_insert (t :: u :: p) a m) (t :: q) = Some None) \/
       (t :: q <> t :: u :: p /\ ~ on_way (t :: q) (t :: u :: p) /\ kind (tok_insert (t :: u :: p) a m) (t :: q) = kind m (t :: q))).
    { intros sub Hb' Hk' Hm ->. cbn [kind]. rewrite (aget_aset_same text_eqb text_eqb_eq). destruct q as [|y q].
      - right. left. split; [split; [easy|now exists (u :: p)]|reflexivity].
      - destruct (IH sub (y :: q) ltac:(discriminate) Hb' Hk') as [[H1 H2]|[[(H1 & r & H2 & H3) H4]|(H1 & H2 & H3)]].
        + left. split; [now rewrite H1|exact H2].
        + right. left. split; [split; [easy|]|exact H4]. exists r. split; [exact H2|]. now rewrite H3.
        + right. right. split; [intros G; apply H1; now inversion G|]. split.
          * intros (_ & r & G1 & G2). apply H2. split; [easy|]. exists r. split; [exact G1|]. cbn in G2 |- *. congruence.
          * rewrite H3. symmetry. apply Hm. }
    destruct (tget t m) as [[sub|b]|] eqn:Ht; [| discriminate |].
    + apply (K sub); auto. 2:{ rewrite tok_insert_cons. now rewrite Ht. } intros y q'. cbn [kind]. now rewrite Ht.
    + apply (K []). 4:{ rewrite tok_insert_cons. now rewrite Ht. } { now destruct p. } { discriminate. } intros y q'. cbn [kind]. now rewrite Ht.
Qed.
Definition is_leaf (P : list path) (q : path) : Prop := In q P /\ forall q', on_way q' q -> ~ In q' P.
Definition is_node (P : list path) (q : path) : Prop := q <> [] /\ (exists r, r <> [] /\ In (q ++ r) P) /\ ~ In q P /\ forall q', on_way q' q -> ~ In q' P.
Inductive by_len : list attr -> Prop :=
| bl_nil : by_len []
| bl_snoc l a : by_len l -> (forall b, In b l -> length (at_path b) <= length (at_path a)) -> by_len (l ++ [a]).
Lemma on_way_len q p : on_way q p -> length q < length p.
Proof. intros (_ & [|x r] & Hr & ->); [easy|]. rewrite app_length. cbn. lia. Qed.
Lemma on_way_trans a b c : on_way a b -> on_way b c -> on_way a c.
Proof. intros (H1 & r & H2 & ->) (_ & r' & H3 & ->). split; [exact H1|]. exists (r ++ r'). split; [now destruct r|]. now rewrite app_assoc. Qed.
Lemma attr_map_snoc l a : attr_map (l ++ [a]) = tok_insert (at_path a) a (attr_map l).
Proof. unfold attr_map. now rewrite fold_left_app. Qed.
Definition paths_of (l : list attr) : list path := map at_path l.
Lemma path_dec (a b : path) : {a = b} + {a <> b}.
Proof. apply list_eq_dec. exact text_eq_dec. Qed.
Lemma Classical_free (q : path) P : (exists w, on_way w q /\ In w P) \/ forall w, on_way w q -> ~ In w P.
Proof.
  assert (D : forall w, on_way w q \/ ~ on_way w q).
  { intros w. destruct w as [|x w]; [right; intros [H _]; easy|]. remember (x :: w) as v eqn:Hv. destruct (path_dec (firstn (length v) q) v) as [He|Hn].
    - destruct (skipn (length v) q) as [|y r] eqn:Hs.
      + right. intros (_ & r & Hr & ->). rewrite skipn_app, skipn_all, Nat.sub_diag in Hs. now cbn in Hs.
      + left. split; [subst v; easy|]. exists (y :: r). split; [easy|]. rewrite <- Hs. rewrite <- He at 1. symmetry. apply firstn_skipn.
    - right. intros (_ & r & Hr & ->). apply Hn. now rewrite firstn_app, firstn_all, Nat.sub_diag, app_nil_r. }
  induction P as [|x P IH]; [right; intros w _ []|]. destruct IH as [(w & H1 & H2)|IH]; [left; exists w; split; [exact H1|now right]|].
  destruct (D x) as [Hx|Hx]; [left; exists x; split; [exact Hx|now left]|]. right. intros w Hw [<-|Hi]; [easy|now apply (IH w)].
Qed.
Lemma attr_map_kind l : by_len l -> (forall a, In a l -> at_path a <> []) -> forall q,
  match kind (attr_map l) q with
  | Some (Some a) => In a l /\ at_path a = q /\ is_leaf (paths_of l) q
  | Some None => is_node (paths_of l) q
  | None => ~ is_leaf (paths_of l) q /\ ~ is_node (paths_of l) q
  end.
Proof.
  induction 1 as [|l a Hl IH Hlen]; intros Hne q.
  - cbn. destruct q; cbn; (split; [intros [[] _]|intros (_ & (r & _ & []) & _)]).
  - assert (Hne' : forall a, In a l -> at_path a <> []) by (intros b Hb; apply Hne, in_or_app; now left).
    assert (Hpa : at_path a <> []) by (apply Hne, in_or_app; right; now left).
    specialize (IH Hne'). rewrite attr_map_snoc. set (p := at_path a) in *. set (m := attr_map l) in *.
    assert (HP : forall x, In x (paths_of (l ++ [a])) <-> In x (paths_of l) \/ x = p).
    { intros x. unfold paths_of. rewrite map_app, in_app_iff. cbn [map In]. fold p. intuition auto. }
    assert (Hlong : forall x, In x (paths_of l) -> length x <= length p).
    { intros x Hx. apply in_map_iff in Hx as (b & <- & Hb). now apply Hlen. }
    assert (Hnn : kind m p <> Some None).
    { intros H. specialize (IH p). rewrite H in IH. destruct IH as (_ & (r & Hr & Hi) & _). apply Hlong in Hi. rewrite app_length in Hi. destruct r; [easy|]. cbn in Hi. lia. }
    destruct (blocked_at p m) eqn:Hb.
    + rewrite ins_blocked by exact Hb. apply kind_blocked in Hb as (w & b & Hw & Hkw). pose proof (IH w) as IHw. rewrite Hkw in IHw. destruct IHw as (_ & _ & Hwi & _).
      assert (L : is_leaf (paths_of (l ++ [a])) q <-> is_leaf (paths_of l) q).
      { unfold is_leaf. split.
        - intros [H1 H2]. apply HP in H1 as [H1| ->]; [split; [exact H1|]; intros q' Hq' Hi; apply (H2 q' Hq'), HP; now left|]. exfalso. apply (H2 w Hw), HP. now left.
        - intros [H1 H2]. split; [apply HP; now left|]. intros q' Hq' Hi. apply HP in Hi as [Hi| ->]; [now apply (H2 q')|]. apply on_way_len in Hq'. apply Hlong in H1. lia. }
      assert (Nn : is_node (paths_of (l ++ [a])) q <-> is_node (paths_of l) q).
      { unfold is_node. split.
        - intros (H1 & (r & H2 & H3) & H4 & H5). split; [exact H1|]. assert (H4' : ~ In q (paths_of l)) by (intros Hi; apply H4, HP; now left).
          assert (H5' : forall q', on_way q' q -> ~ In q' (paths_of l)) by (intros q' Hq' Hi; apply (H5 q' Hq'), HP; now left).
          apply HP in H3 as [H3|H3]; [split; [now exists r|now split]|]. split; [|now split].
          (* w and q are both prefixes of p *)
          destruct Hw as (W1 & r' & W2 & W3). rewrite <- H3 in W3. apply app_eq_app in W3 as (l0 & [[W3 ->]|[W3 ->]]).
          + destruct l0 as [|z l0]; [rewrite app_nil_r in W3; subst w; now destruct H4'|]. exfalso. apply (H5' w); [|exact Hwi]. split; [exact W1|]. now exists (z :: l0).
          + destruct l0 as [|z l0]; [rewrite app_nil_r in W3; subst w; now destruct H4'|]. exists (z :: l0). split; [easy|]. now rewrite <- W3.
        - intros (H1 & (r & H2 & H3) & H4 & H5). split; [exact H1|]. split; [exists r; split; [exact H2|apply HP; now left]|].
          assert (Hq : length q < length p) by (apply Hlong in H3; rewrite app_length in H3; destruct r; [easy|cbn in H3; lia]).
          split; [intros Hi; apply HP in Hi as [Hi| ->]; [now apply H4|lia]|]. intros q' Hq' Hi. apply HP in Hi as [Hi| ->]; [now apply (H5 q')|]. apply on_way_len in Hq'. lia. }
      specialize (IH q). destruct (kind m q) as [[b'|]|]; rewrite ?L, ?Nn; auto. destruct IH as (I1 & I2 & I3). split; [apply in_or_app; now left|]. now split.
    + assert (Hway : forall q', on_way q' p -> ~ In q' (paths_of l)).
      { intros q' Hq' Hi. pose proof (kind_blocked p m) as Hkb. rewrite Hb in Hkb.
        assert (Hlf : exists w, (w = q' \/ on_way w q') /\ is_leaf (paths_of l) w).
        { clear - Hi Hne'. induction q' as [q' IHn] using (induction_ltof1 _ (@length _)). unfold ltof in IHn.
          destruct (Classical_free q' (paths_of l)) as [(w & Hw & Hwi)|Hno].
          - destruct (IHn w (on_way_len _ _ Hw) Hwi) as (x & Hx & Hxl). exists x. split; [|exact Hxl]. right. destruct Hx as [->|Hx]; [exact Hw|now eapply on_way_trans; eauto].
          - exists q'. split; [now left|]. split; [exact Hi|]. exact Hno. }
        destruct Hlf as (w & Hw & Hwl). assert (Hwp : on_way w p) by (destruct Hw as [->|Hw]; [exact Hq'|eapply on_way_trans; eauto]).
        specialize (IH w). destruct (kind m w) as [[b|]|] eqn:Hkw.
        - assert (false = true) by (apply Hkb; exists w, b; now split). discriminate.
        - destruct IH as (_ & _ & I & _). exact (I (proj1 Hwl)).
        - exact (proj1 IH Hwl). }
      destruct (ins_kind a p m q Hpa Hb Hnn) as [[-> ->]|[[Hq ->]|(Hq1 & Hq2 & ->)]].
      * split; [apply in_or_app; right; now left|]. split; [reflexivity|]. split; [apply HP; now right|]. intros q' Hq' Hi. apply HP in Hi as [Hi| ->]; [now apply (Hway q')|]. apply on_way_len in Hq'. lia.
      * destruct Hq as (Q1 & r & Q2 & Q3). assert (Hq : on_way q p) by (split; [exact Q1|now exists r]). split; [exact Q1|]. split; [exists r; split; [exact Q2|apply HP; now right]|].
        split; [intros Hi; apply HP in Hi as [Hi|Hi]; [now apply (Hway q)|apply on_way_len in Hq; rewrite Hi in Hq; lia]|].
        intros q' Hq' Hi. apply HP in Hi as [Hi|Hi]; [apply (Hway q'); [eapply on_way_trans; eauto|exact Hi]|]. apply on_way_len in Hq, Hq'. rewrite Hi in Hq'. lia.
      * assert (L : is_leaf (paths_of (l ++ [a])) q <-> is_leaf (paths_of l) q).
        { unfold is_leaf. split.
          - intros [H1 H2]. apply HP in H1 as [H1|H1]; [|now destruct Hq1]. split; [exact H1|]. intros q' Hq' Hi. apply (H2 q' Hq'), HP. now left.
          - intros [H1 H2]. split; [apply HP; now left|]. intros q' Hq' Hi. apply HP in Hi as [Hi| ->]; [now apply (H2 q')|]. apply on_way_len in Hq'. apply Hlong in H1. lia. }
        assert (Nn : is_node (paths_of (l ++ [a])) q <-> is_node (paths_of l) q).
        { unfold is_node. split.
          - intros (H1 & (r & H2 & H3) & H4 & H5). split; [exact H1|]. split; [|split; [intros Hi; apply H4, HP; now left|intros q' Hq' Hi; apply (H5 q' Hq'), HP; now left]].
            apply HP in H3 as [H3|H3]; [now exists r|]. exfalso. apply Hq2. split; [exact H1|]. exists r. now split.
          - intros (H1 & (r & H2 & H3) & H4 & H5). split; [exact H1|]. split; [exists r; split; [exact H2|apply HP; now left]|].
            assert (Hql : length q < length p) by (apply Hlong in H3; rewrite app_length in H3; destruct r; [easy|cbn in H3; lia]).
            split; [intros Hi; apply HP in Hi as [Hi|Hi]; [now apply H4|now apply Hq1]|]. intros q' Hq' Hi. apply HP in Hi as [Hi| ->]; [now apply (H5 q')|]. apply on_way_len in Hq'. lia. }
        specialize (IH q). destruct (kind m q) as [[b'|]|]; rewrite ?L, ?Nn; auto. destruct IH as (I1 & I2 & I3). split; [apply in_or_app; now left|]. now split.
Qed.

(** * Where a walk stops, in terms of the collected paths *)
Fixpoint joined (q : path) : text := match q with [] => [] | [t] => t | t :: q' => t ++ dot :: joined q' end.
Fixpoint curs (pre : text) (q : path) : text := match q with [] => pre | t :: q' => curs (cur pre t) q' end.
Lemma cur_cons pre t : pre <> [] -> cur pre t = pre ++ dot :: t.
Proof. now destruct pre. Qed.
Lemma curs_pre q : forall pre, pre <> [] -> q <> [] -> curs pre q = pre ++ dot :: joined q.
Proof.
  induction q as [|t q IH]; [easy|]. intros pre Hp _. cbn [curs]. rewrite (cur_cons _ _ Hp). destruct q as [|u q]; [reflexivity|].
  rewrite IH; [|now destruct pre|easy]. cbn [joined]. now rewrite <- app_assoc.
Qed.
Definition headed (q : path) : Prop := match q with [] => False | t :: _ => t <> [] end.
Lemma curs_joined q : headed q -> curs [] q = joined q.
Proof.
  destruct q as [|t q]; [easy|]. intros Ht. cbn [curs]. change (cur [] t) with t. destruct q as [|u q]; [reflexivity|]. now rewrite curs_pre.
Qed.
Definition root_seen (c : ctx) (pre : text) (q : path) : Prop := match q with [] => False | t :: _ => pre = [] -> known_root c [] t = true end.
Definition long (q : path) : Prop := match q with _ :: _ :: _ => True | _ => False end.
Lemma on_way_cons t q' q : on_way q' (t :: q) <-> (q' = [t] /\ q <> []) \/ exists q2, q' = t :: q2 /\ on_way q2 q.
Proof.
  split.
  - intros (H1 & r & H2 & H3). destruct q' as [|x q']; [easy|]. injection H3 as <- ->. destruct q' as [|y q']; [left; now split|].
    right. exists (y :: q'). split; [reflexivity|]. split; [easy|now exists r].
  - intros [[-> H]|(q2 & -> & (H1 & r & H2 & ->))]; (split; [easy|]); [now exists q|now exists r].
Qed.
Definition tok_result (E : env) (c : ctx) (pre : text) (l : list (text * token)) (q : path) (r : rd value) : Prop :=
  (exists v, kind l q <> None /\ val_get (curs pre q) c = Some v /\ r = RAvail v) \/
  (kind l q <> None /\ val_pending (curs pre q) c = true /\ r = RPending) \/
  (exists a, kind l q = Some (Some a) /\ free c (curs pre q) /\ root_seen c pre q /\ r = fst (attr_get E a c)).
Lemma known_inner c pre t : pre <> [] -> known_root c pre t = true.
Proof. intros H. unfold known_root. now destruct pre. Qed.
Lemma cur_nonempty pre t : (pre = [] -> t <> []) -> cur pre t <> [].
Proof. destruct pre; cbn; [auto|discriminate]. Qed.
Lemma stops_kind E c q : forall pre l r, (pre = [] -> headed q) ->
  (stops E c pre l q r <-> q <> [] /\ (forall q', on_way q' q -> kind l q' = Some None /\ free c (curs pre q')) /\ (long q -> root_seen c pre q) /\ tok_result E c pre l q r).
Proof.
  induction q as [|t q IH]; intros pre l r Hh; [split; [intros H; inversion H|intros [H _]; easy]|].
  assert (Hc : cur pre t <> []) by (apply cur_nonempty; exact Hh).
  assert (Hone : forall w, ~ on_way w [t]).
  { intros w (W1 & r0 & W2 & W3). destruct w as [|x w]; [easy|]. injection W3 as _ W3. symmetry in W3. apply app_eq_nil in W3 as [_ ->]. easy. }
  assert (Hroot : known_root c pre t = true <-> root_seen c pre (t :: q)).
  { cbn [root_seen]. destruct pre as [|x pre]; [split; auto|]. split; [discriminate|]. intros _. now apply known_inner. }
  split.
  - intros H. inversion H as [? ? ? tk v G1 G2|? ? ? tk G1 G2|? ? ? a G1 G2 G3|? ? ? sub ? ? G1 G2 G3 G4]; subst.
    + split; [easy|]. split; [intros q' Hq'; now apply Hone in Hq'|]. split; [easy|]. left. exists v. cbn [kind curs]. rewrite G1. split; [now destruct tk|now split].
    + split; [easy|]. split; [intros q' Hq'; now apply Hone in Hq'|]. split; [easy|]. right. left. cbn [kind curs]. rewrite G1. split; [now destruct tk|now split].
    + split; [easy|]. split; [intros q' Hq'; now apply Hone in Hq'|]. split; [easy|]. right. right. exists a. cbn [kind curs]. rewrite G1. split; [reflexivity|]. split; [exact G2|]. split; [now apply Hroot|reflexivity].
    + apply IH in G4; [|intros; easy]. destruct G4 as (Hq & K1 & K2 & K3). split; [easy|].
      assert (Hks : forall w, w <> [] -> kind l (t :: w) = kind sub w) by (intros [|y w] Hw; [easy|]; cbn [kind]; now rewrite G1).
      split; [|split].
      * intros q' Hq'. apply on_way_cons in Hq' as [[-> _]|(q2 & -> & Hq2)]; [cbn [kind curs]; rewrite G1; now split|].
        destruct (K1 q2 Hq2) as [A1 A2]. split; [rewrite Hks; [exact A1|apply Hq2]|exact A2].
      * intros _. now apply Hroot.
      * unfold tok_result in *. rewrite (Hks q Hq). cbn [curs]. destruct K3 as [K3|[K3|(a & A1 & A2 & A3 & A4)]]; auto. right. right. exists a. split; [exact A1|]. split; [exact A2|]. split; [now apply Hroot|exact A4].
  - intros (_ & K1 & K2 & K3). destruct q as [|u q].
    + cbn [kind curs] in K3. unfold tok_result in K3. cbn [kind curs] in K3. destruct (tget t l) as [tk|] eqn:Ht.
      2:{ destruct K3 as [(v & H & _)|[(H & _)|(a & H & _)]]; easy. }
      destruct K3 as [(v & _ & H & ->)|[(_ & H & ->)|(a & H1 & H2 & H3 & ->)]]; [eapply st_stored; eauto|eapply st_pending; eauto|]. destruct tk as [sub|b]; [discriminate|]. injection H1 as ->. apply st_leaf; auto. now apply Hroot.
    + destruct (K1 [t]) as [A1 A2]; [apply on_way_cons; left; now split|]. cbn [kind curs] in A1, A2. destruct (tget t l) as [[sub|b]|] eqn:Ht; try discriminate.
      assert (Hks : forall w, w <> [] -> kind l (t :: w) = kind sub w) by (intros [|y w] Hw; [easy|]; cbn [kind]; now rewrite Ht).
      eapply st_down; [exact Ht|exact A2|apply Hroot; now apply K2|]. apply IH; [intros; easy|]. split; [easy|]. split; [|split].
      * intros q' Hq'. destruct (K1 (t :: q')) as [B1 B2]; [apply on_way_cons; right; eauto|]. split; [rewrite <- Hks; [exact B1|apply Hq']|exact B2].
      * intros _. cbn [root_seen]. intros. easy.
      * unfold tok_result in *. rewrite (Hks (u :: q)) in K3 by easy. cbn [curs] in *. destruct K3 as [K3|[K3|(a & B1 & B2 & B3 & B4)]]; auto. right. right. exists a. split; [exact B1|]. split; [exact B2|]. split; [cbn; intros; easy|exact B4].
Qed.

(** [decided E c P q r]: with the paths [P] collected, the part [q] of one of them is where its value is
    taken from, and reading gives [r] *)
Definition root_known (c : ctx) (t : text) : Prop :=
  is_host_root t = true \/ (exists p v, In (p, v) (c_vals c) /\ exists r, p = t ++ dot :: r) \/ (exists p, In p (c_res c) /\ exists r, p = t ++ dot :: r).
Definition unset (c : ctx) (q : path) : Prop := tget (joined q) (c_vals c) = None.
Definition host_read (E : env) (c : ctx) (q : path) : rd value :=
  match fst (read_attr E q c) with
  | RAvail x => match decode E (at_type (attr_for q)) x with Some v => RAvail v | None => RErr end
  | RPending => RPending
  | RErr => RErr
  end.
Definition decided (E : env) (c : ctx) (P : list path) (q : path) (r : rd value) : Prop :=
  q <> [] /\ (exists more, In (q ++ more) P) /\
  (forall q', on_way q' q -> ~ In q' P /\ unset c q' /\ ~ In (joined q') (c_res c)) /\
  (long q -> root_known c (hd [] q)) /\
  ((exists v, tget (joined q) (c_vals c) = Some v /\ r = RAvail v) \/
   (unset c q /\ In (joined q) (c_res c) /\ r = RPending) \/
   (unset c q /\ ~ In (joined q) (c_res c) /\ In q P /\ root_known c (hd [] q) /\ r = host_read E c q)).
Lemma mem_text_In x l : mem_text x l = true <-> In x l.
Proof. unfold mem_text. rewrite existsb_exists. split; [intros (y & H1 & H2); apply text_eqb_eq in H2; now subst|]. intros H. exists x. split; [exact H|apply text_eqb_refl]. Qed.
Lemma pending_spec c p : val_pending p c = true <-> tget p (c_vals c) = None /\ In p (c_res c).
Proof. unfold val_pending, val_get. destruct (tget p (c_vals c)); [split; [discriminate|intros [[=] _]]|]. rewrite mem_text_In. now split. Qed.
Lemma free_spec c p : free c p <-> tget p (c_vals c) = None /\ ~ In p (c_res c).
Proof.
  unfold free, val_get. split; intros [H1 H2]; (split; [exact H1|]).
  - intros Hi. assert (val_pending p c = true) by now apply pending_spec. congruence.
  - destruct (val_pending p c) eqn:H; [|reflexivity]. apply pending_spec in H. now destruct H2.
Qed.
Lemma known_root_spec c t : known_root c [] t = true <-> root_known c t.
Proof.
  unfold known_root, root_known, val_has_prefix. cbn [andb]. rewrite negb_andb, !negb_involutive, !orb_true_iff, !existsb_exists.
  split; intros [H|[(x & H1 & H2)|H]]; auto.
  - right. left. apply starts_with_spec in H2 as (r & H2). exists (fst x), (snd x). split; [now destruct x|]. exists r. now rewrite H2, <- app_assoc.
  - right. right. destruct H as (x & H1 & H2). apply starts_with_spec in H2 as (r & ->). exists ((t ++ [dot]) ++ r). split; [exact H1|]. exists r. now rewrite <- app_assoc.
  - destruct H2 as (Hi & r & ->). right. left. exists (t ++ dot :: r, H1). split; [exact Hi|]. apply starts_with_spec. exists r. cbn. now rewrite <- app_assoc.
  - destruct H as (p & H1 & r & ->). right. right. exists (t ++ dot :: r). split; [exact H1|]. apply starts_with_spec. exists r. now rewrite <- app_assoc.
Qed.

(** attributes as [expr_of] collects them *)
Record tidy_attrs (l : list attr) : Prop := {
  ta_len : by_len l; ta_for : forall a, In a l -> a = attr_for (at_path a);
  ta_headed : forall a, In a l -> headed (at_path a); ta_plain : forall a, In a l -> Prop_Paths.plain (at_path a) }.
Lemma headed_app q r : headed q -> headed (q ++ r). Proof. now destruct q. Qed.
Lemma app_headed q r : q <> [] -> headed (q ++ r) -> headed q. Proof. now destruct q. Qed.
Lemma kind_some_path l q : tidy_attrs l -> kind (attr_map l) q <> None -> headed q /\ exists more, In (q ++ more) (paths_of l).
Proof.
  intros [H1 H2 H3 H4] Hk. pose proof (attr_map_kind l H1) as K. specialize (K (fun a Ha => proj1 (H4 a Ha)) q).
  assert (Hh : forall p, In p (paths_of l) -> headed p) by (intros p Hp; apply in_map_iff in Hp as (a & <- & Ha); now apply H3).
  destruct (kind (attr_map l) q) as [[a|]|]; [| |easy].
  - destruct K as (_ & _ & K & _). split; [now apply Hh|]. exists []. now rewrite app_nil_r.
  - destruct K as (K1 & (r & _ & K2) & _). split; [|now exists r]. apply Hh in K2. now apply app_headed in K2.
Qed.
Lemma stops_decided E c l q r : tidy_attrs l -> (stops E c [] (attr_map l) q r <-> decided E c (paths_of l) q r).
Proof.
  intros HT. pose proof HT as [H1 H2 H3 H4]. pose proof (attr_map_kind l H1 (fun a Ha => proj1 (H4 a Ha))) as K.
  assert (Hh : forall p, In p (paths_of l) -> headed p) by (intros p Hp; apply in_map_iff in Hp as (a & <- & Ha); now apply H3).
  assert (Hw : forall q' q, on_way q' q -> headed q -> headed q') by (intros q' q0 (W1 & r0 & W2 & ->) W; now apply app_headed in W).
  assert (Hleaf : forall a, In a l -> fst (attr_get E a c) = host_read E c (at_path a)).
  { intros a Ha. rewrite (H2 a Ha) at 1. unfold attr_get, host_read. cbn [attr_for at_path]. destruct (read_attr E (at_path a) c) as [[|x|] c']; reflexivity. }
  split.
  - intros Hs. assert (Hq : headed q).
    { destruct q as [|t q]; [inversion Hs|]. assert (kind (attr_map l) [t] <> None) by (inversion Hs; subst; cbn [kind]; match goal with H : tget t _ = Some ?x |- _ => rewrite H; try (now destruct x); easy end).
      apply (kind_some_path _ _ HT) in H as [H _]. exact H. }
    apply stops_kind in Hs; [|auto]. destruct Hs as (S1 & S2 & S3 & S4).
    assert (Hsome : kind (attr_map l) q <> None) by (destruct S4 as [(v & S4 & _)|[(S4 & _)|(a & S4 & _)]]; congruence).
    destruct (kind_some_path _ _ HT Hsome) as (_ & Hmore).
    split; [exact S1|]. split; [exact Hmore|]. split; [|split].
    + intros q' Hq'. destruct (S2 q' Hq') as [A1 A2]. rewrite curs_joined in A2 by eauto. apply free_spec in A2 as [A2 A3]. specialize (K q'). rewrite A1 in K. destruct K as (_ & _ & K & _). now split.
    + intros Hl. specialize (S3 Hl). destruct q as [|t q]; [easy|]. apply known_root_spec. now apply S3.
    + unfold tok_result in S4. rewrite curs_joined in S4 by exact Hq. destruct S4 as [(v & _ & A & ->)|[(_ & A & ->)|(a & A1 & A2 & A3 & ->)]].
      * left. now exists v.
      * right. left. apply pending_spec in A as [A1 A2]. now split.
      * right. right. apply free_spec in A2 as [A2 A4]. specialize (K q). rewrite A1 in K. destruct K as (K1 & <- & K2 & _). split; [exact A2|]. split; [exact A4|]. split; [exact K2|].
        split; [|now apply Hleaf]. destruct (at_path a) as [|t q]; [easy|]. apply known_root_spec. now apply A3.
  - intros (D1 & (more & D2) & D3 & D4 & D5). assert (Hq : headed q) by (apply Hh in D2; now apply app_headed in D2).
    apply stops_kind; [auto|]. split; [exact D1|].
    assert (Hroot : root_known c (hd [] q) -> root_seen c [] q) by (destruct q as [|t q']; [easy|]; intros H _; now apply known_root_spec).
    assert (Hknown : kind (attr_map l) q <> None).
    { specialize (K q). intros Hn. rewrite Hn in K. destruct K as [K1 K2]. destruct (in_dec path_dec q (paths_of l)) as [Hi|Hi].
      - apply K1. split; [exact Hi|]. intros q' Hq'. now apply D3.
      - apply K2. split; [exact D1|]. split; [|split; [exact Hi|intros q' Hq'; now apply D3]]. destruct more as [|x more]; [rewrite app_nil_r in D2; easy|]. now exists (x :: more). }
    split; [|split].
    + intros q' Hq'. destruct (D3 q' Hq') as (A1 & A2 & A3). split; [|rewrite curs_joined by eauto; apply free_spec; now split].
      specialize (K q'). destruct (kind (attr_map l) q') as [[a|]|].
      * destruct K as (_ & _ & K & _). easy.
      * reflexivity.
      * exfalso. apply (proj2 K). split; [apply Hq'|]. split; [|split; [exact A1|intros q2 Hq2; apply D3; eapply on_way_trans; eauto]].
        destruct Hq' as (W1 & r0 & W2 & W3). exists (r0 ++ more). split; [now destruct r0|]. rewrite app_assoc, <- W3. exact D2.
    + intros Hl. auto.
    + unfold tok_result. rewrite curs_joined by exact Hq. destruct D5 as [(v & A & ->)|[(A1 & A2 & ->)|(A1 & A2 & A3 & A4 & ->)]].
      * left. exists v. now split.
      * right. left. split; [exact Hknown|]. split; [now apply pending_spec|reflexivity].
      * right. right. specialize (K q). destruct (kind (attr_map l) q) as [[a|]|]; [| |easy].
        -- destruct K as (K1 & <- & _). exists a. split; [reflexivity|]. split; [apply free_spec; now split|]. split; [auto|]. symmetry. now apply Hleaf.
        -- destruct K as (_ & _ & K & _). easy.
Qed.

(** ** The tree is well formed *)
Lemma tset_keys {V} k (v : V) m : NoDup (map fst m) -> NoDup (map fst (tset k v m)).
Proof. apply (NoDup_aset text_eqb text_eqb_eq). Qed.
Lemma tset_In {V} k (v : V) m x w : In (x, w) (tset k v m) -> w = v \/ In (x, w) m.
Proof.
  induction m as [|[k' v'] m IH]; cbn [aset]; [intros [[= <- <-]|[]]; auto|].
  destruct (text_eqb k k'); intros [[= <- <-]|H]; [now left|right; now right|right; now left|]. apply IH in H as [H|H]; [now left|right; now right].
Qed.
Lemma ins_wf a p : Prop_Paths.plain (at_path a) -> forall m, wf_tok (TokNode m) -> wf_tok (TokNode (tok_insert p a m)).
Proof.
  intros Ha. induction p as [|t p IH]; intros m Hm; [exact Hm|]. inversion Hm as [|? H1 H2]; subst. destruct p as [|u p].
  - cbn [tok_insert]. constructor; [now apply tset_keys|]. intros x tk Hi. apply tset_In in Hi as [->|Hi]; [now constructor|eauto].
  - rewrite tok_insert_cons. destruct (tget t m) as [[sub|b]|] eqn:Ht; [|exact Hm|].
    + constructor; [now apply tset_keys|]. intros x tk Hi. apply tset_In in Hi as [->|Hi]; [|eauto]. apply IH. apply (aget_In text_eqb text_eqb_eq) in Ht. eauto.
    + constructor; [now apply tset_keys|]. intros x tk Hi. apply tset_In in Hi as [->|Hi]; [|eauto]. apply IH. constructor; [constructor|easy].
Qed.
Lemma attr_map_wf l : (forall a, In a l -> Prop_Paths.plain (at_path a)) -> wf_tok (TokNode (attr_map l)).
Proof.
  induction l as [|a l IH] using rev_ind; intros H; [constructor; [constructor|easy]|]. rewrite attr_map_snoc. apply ins_wf; [apply H, in_or_app; right; now left|].
  apply IH. intros b Hb. apply H, in_or_app. now left.
Qed.

(** * What an expression is evaluated with *)
Definition body_missing (ex : expr) (c : ctx) : Prop :=
  (exists f, In f (ex_resp ex) /\ tget f (b_vals (c_respb c)) = None) \/ (exists f, In f (ex_req ex) /\ tget f (b_vals (c_reqb c)) = None).
Lemma body_map_spec fs b : forall acc, match body_map fs b acc with
  | Some _ => forall f, In f fs -> tget f (b_vals b) <> None
  | None => exists f, In f fs /\ tget f (b_vals b) = None
  end.
Proof.
  induction fs as [|f fs IH]; intros acc; cbn [body_map]; [intros f []|]. destruct (tget f (b_vals b)) as [v|] eqn:Hf; [|exists f; split; [now left|exact Hf]].
  specialize (IH (aset mkey_eqb (KStr f) v acc)). destruct (body_map fs b _) as [x|].
  - intros g [<-|Hg]; [congruence|auto].
  - destruct IH as (g & H1 & H2). exists g. split; [now right|exact H2].
Qed.
Record vars_of (E : env) (ex : expr) (c : ctx) (vs vs' : vars) (m : list (mkey * value)) (rv : value) : Prop := {
  vo_vs : exists qj rj, vs' = (req_json_var, qj) :: (resp_json_var, rj) :: rev (other_vars m ++ stored_vars m c) ++ rev (fixed_vars m) ++ (tx "request", rv) :: vs;
  vo_nodup : NoDup (map fst m);
  vo_keys : forall k x, In (k, x) m -> exists t, k = KStr t /\ (exists more, In (t :: more) (paths_of (ex_attrs ex))) /\ (tget t (c_vals c) <> None \/ root_known c t);
  vo_look : forall q r, decided E c (paths_of (ex_attrs ex)) q r -> exists x, r = RAvail x /\ vlook q (VMap m) = Some x;
  vo_req : ex_grpc ex = false -> rv = match mget (tx "request") m with Some v => v | None => VNull end;
  vo_sub : forall t w, In (KStr t, w) m -> tget t (c_vals c) = Some w \/ In [t] (paths_of (ex_attrs ex)) \/
    exists l, w = VMap l /\ forall k y, In (k, y) l -> exists u more, k = KStr u /\ In (t :: u :: more) (paths_of (ex_attrs ex));
  vo_grpc : ex_grpc ex = true -> rv = VMap (let base := match mget (tx "request") m with Some (VMap l) => l | _ => [] end in
    match fst (resolve_grpc E c) with Some g => aset mkey_eqb (KStr (tx "grpc")) g base | None => base end) }.
Lemma plain_url : Prop_Paths.plain [tx "request"; tx "url_path"].
Proof. split; [discriminate|]. intros s [<-|[<-|[]]] H; cbn in H; intuition discriminate. Qed.
Lemma request_value_sr E ex m c r c' : request_value E ex m c = (r, c') -> same_reads E c c'.
Proof.
  unfold request_value. destruct (ex_grpc ex); [|intros [= <- <-]; apply sr_refl]. destruct (resolve_grpc E c) as [g c1] eqn:H. intros [= <- <-]. revert H.
  unfold resolve_grpc. destruct (h_reqheader E (c_log c) _) as [ct|]; [|intros [= <- <-]; apply sr_refl]. destruct (is_grpc_content_type ct); [|intros [= <- <-]; apply sr_refl].
  unfold read_string. destruct (read_attr E _ c) as [r1 c2] eqn:H. apply read_attr_sr in H; [|apply plain_url]. destruct r1 as [|[[b|]|]|]; try (destruct (parse_string b)); intros [= <- <-]; exact H.
Qed.
Lemma resolve_grpc_same E c c' : same_reads E c c' -> fst (resolve_grpc E c') = fst (resolve_grpc E c).
Proof.
  intros H. unfold resolve_grpc. rewrite (sr_log _ _ _ H). destruct (h_reqheader E (c_log c) _) as [ct|]; [|reflexivity]. destruct (is_grpc_content_type ct); [|reflexivity].
  unfold read_string. pose proof (sr_read _ _ _ H _ plain_url) as Hr. destruct (read_attr E _ c') as [r1 c1], (read_attr E _ c) as [r2 c2]. cbn [fst] in Hr. subst r1.
  destruct r2 as [|[[b|]|]|]; try reflexivity. now destruct (parse_string b).
Qed.
Lemma host_paths_plain ex : tidy_attrs (ex_attrs ex) -> Forall Prop_Paths.plain (host_paths ex).
Proof. intros [_ _ _ H]. apply Forall_forall. intros p Hp. unfold host_paths in Hp. apply filter_In in Hp as [Hp _]. apply in_map_iff in Hp as (a & <- & Ha). auto. Qed.
Lemma decided_same E c c' P q r : Forall Prop_Paths.plain P -> same_reads E c c' -> decided E c' P q r <-> decided E c P q r.
Proof.
  intros HP H. unfold decided, unset, root_known. rewrite (sr_vals _ _ _ H), (sr_res _ _ _ H).
  assert (K : In q P -> host_read E c' q = host_read E c q).
  { intros Hi. rewrite Forall_forall in HP. unfold host_read. now rewrite (sr_read _ _ _ H q (HP q Hi)). }
  split; intros (D1 & D2 & D3 & D4 & D5); (split; [exact D1|]; split; [exact D2|]; split; [exact D3|]; split; [exact D4|]);
    destruct D5 as [D5|[D5|(A1 & A2 & A3 & A4 & ->)]]; auto; right; right; repeat (split; [assumption|]); [now apply K|symmetry; now apply K].
Qed.
Lemma eval_vars_spec E ex vs c r c' : tidy_attrs (ex_attrs ex) -> eval_vars E ex vs c = (r, c') ->
  match r with
  | RErr => exists q, decided E c (paths_of (ex_attrs ex)) q RErr
  | RPending => (exists q, decided E c (paths_of (ex_attrs ex)) q RPending) \/ body_missing ex c
  | RAvail vs' => ~ body_missing ex c /\ exists m rv, vars_of E ex c vs vs' m rv
  end /\ same_reads E c c'.
Proof.
  intros HT. unfold eval_vars. pose proof (ensure_sr E (host_paths ex) c (host_paths_plain _ HT)) as H0. set (c1 := ensure_attributes E (host_paths ex) c) in *.
  unfold data_map. assert (Hwf : wf_tok (TokNode (attr_map (ex_attrs ex)))) by (apply attr_map_wf, (ta_plain _ HT)).
  destruct (tok_value E [] (TokNode (attr_map (ex_attrs ex))) c1) as [r1 c2] eqn:Ht. apply (tok_value_pure E c) in Ht as [Hr Hs]; [|exact Hwf|exact H0].
  pose proof (ptok_stops E c _ Hwf [] _ eq_refl) as Hp. rewrite <- Hr in Hp.
  destruct r1 as [|v|].
  - intros [= <- <-]. split; [|exact Hs]. destruct Hp as (q & Hq). apply stops_decided in Hq; [|exact HT]. left. now exists q.
  - rename Hr into Hr0. destruct Hp as (m & -> & Hk & Hnd & Hl). cbn [ptok] in Hr0. symmetry in Hr0. apply pgo_entries in Hr0 as (m0 & [= <-] & Hent). destruct (request_value E ex m c2) as [rv c3] eqn:Hrv.
    pose proof (request_value_sr _ _ _ _ _ _ Hrv) as Hs2. assert (Hs3 : same_reads E c c3) by (eapply sr_trans; eauto).
    pose proof (body_map_spec (ex_resp ex) (c_respb c3) []) as B1. rewrite (sr_respb _ _ _ Hs3) in B1 |- *.
    destruct (body_map (ex_resp ex) (c_respb c) []) as [rj|]; [|intros [= <- <-]; split; [right; left; exact B1|exact Hs3]].
    pose proof (body_map_spec (ex_req ex) (c_reqb c3) []) as B2. rewrite (sr_reqb _ _ _ Hs3) in B2 |- *.
    destruct (body_map (ex_req ex) (c_reqb c) []) as [qj|]; [|intros [= <- <-]; split; [right; right; exact B2|exact Hs3]].
    intros [= <- <-]. split; [|exact Hs3]. split; [intros [(f & F1 & F2)|(f & F1 & F2)]; [now apply (B1 f)|now apply (B2 f)]|].
    exists m, rv. constructor.
    + exists (VMap qj), (VMap rj). unfold stored_vars. rewrite (sr_vals _ _ _ Hs3). reflexivity.
    + exact Hnd.
    + intros k x Hi. destruct (Hk _ _ Hi) as (t & tk & -> & Htk & Hsh). exists t. split; [reflexivity|]. split.
      * assert (Hkn : kind (attr_map (ex_attrs ex)) [t] <> None).
        { cbn [kind]. inversion Hwf as [|? Hn _]; subst. rewrite (In_tget _ _ _ Hn Htk). now destruct tk. }
        destruct (kind_some_path _ _ HT Hkn) as (_ & more & Hm). now exists more.
      * destruct Hsh as [H|H]; [left; exact H|right; now apply known_root_spec].
    + intros q r Hd. apply stops_decided in Hd; [|exact HT]. now apply Hl.
    + intros Hg. unfold request_value in Hrv. rewrite Hg in Hrv. now injection Hrv.
    + intros t w Hi. destruct (Hent _ _ Hi) as [[]|(t' & tk & [= <-] & Htk & [Hw|Hw])]; [left; exact Hw|]. right.
      inversion Hwf as [|? Hn Hsub]; subst. pose proof (In_tget _ _ _ Hn Htk) as Hgt. destruct tk as [sub|a].
      * right. pose proof (ptok_stops E c _ (Hsub _ _ Htk) (cur [] t) _ eq_refl) as Hpt. rewrite Hw in Hpt. destruct Hpt as (l & -> & Hkl & _). exists l. split; [reflexivity|].
        intros k y Hy. destruct (Hkl _ _ Hy) as (u & tu & -> & Hu & _). pose proof (Hsub _ _ Htk) as Hws. inversion Hws as [|? Hn2 _]; subst.
        assert (Hkn : kind (attr_map (ex_attrs ex)) [t; u] <> None) by (cbn [kind]; rewrite Hgt, (In_tget _ _ _ Hn2 Hu); now destruct tu).
        destruct (kind_some_path _ _ HT Hkn) as (_ & more & Hm). exists u, more. now split.
      * left. assert (Hkn : kind (attr_map (ex_attrs ex)) [t] = Some (Some a)) by (cbn [kind]; now rewrite Hgt).
        assert (Hne : forall b, In b (ex_attrs ex) -> at_path b <> []) by (intros b Hb; pose proof (ta_headed _ HT _ Hb); now destruct (at_path b)).
        pose proof (attr_map_kind _ (ta_len _ HT) Hne [t]) as Hak. rewrite Hkn in Hak. destruct Hak as (Ha & Hp & _). unfold paths_of. rewrite <- Hp. now apply in_map.
    + intros Hg. unfold request_value in Hrv. rewrite Hg in Hrv. rewrite <- (resolve_grpc_same _ _ _ Hs). destruct (resolve_grpc E c2) as [g c4]. apply (f_equal fst) in Hrv. cbn [fst] in Hrv |- *. rewrite <- Hrv. destruct (mget (tx "request") m) as [[]|]; reflexivity.
  - intros [= <- <-]. split; [|exact Hs]. destruct Hp as (q & Hq). apply stops_decided in Hq; [|exact HT]. now exists q.
Qed.
(** ** Looking up a variable *)
Lemma tget_app {V} k (a b : list (text * V)) : tget k (a ++ b) = match tget k a with Some v => Some v | None => tget k b end.
Proof. induction a as [|[k' v] a IH]; [reflexivity|]. cbn [app aget]. destruct (text_eqb k k'); [reflexivity|exact IH]. Qed.
Lemma tget_rev {V} k (l : list (text * V)) : NoDup (map fst l) -> tget k (rev l) = tget k l.
Proof.
  induction l as [|[k' v] l IH]; [reflexivity|]. cbn [map fst]. intros Hn. inversion Hn as [|? ? N1 N2]; subst. cbn [rev]. rewrite tget_app, IH by exact N2. cbn [aget].
  destruct (text_eqb k k') eqn:He; [|now destruct (tget k l)]. apply text_eqb_eq in He. subst k'. apply (aget_None text_eqb text_eqb_eq) in N1. now rewrite N1.
Qed.
Lemma tget_notin {V} k (l : list (text * V)) : ~ In k (map fst l) -> tget k l = None.
Proof. apply (aget_None text_eqb text_eqb_eq). Qed.

Definition fixed_names : list text := [tx "metadata"; tx "source"; tx "destination"; tx "auth"].
Lemma fixed_vars_get m n : tget n (rev (fixed_vars m)) = if mem_text n fixed_names then Some (match mget n m with Some v => v | None => VNull end) else None.
Proof.
  unfold fixed_vars. change [tx "metadata"; tx "source"; tx "destination"; tx "auth"] with fixed_names.
  assert (Hn : NoDup fixed_names) by (repeat constructor; cbn; intuition discriminate).
  rewrite tget_rev by (rewrite map_map; cbn [fst]; now rewrite map_id).
  induction fixed_names as [|x l IH]; [reflexivity|]. cbn [map aget mem_text existsb fst]. inversion Hn; subst. destruct (text_eqb n x) eqn:He.
  - apply text_eqb_eq in He. now subst.
  - cbn [orb]. now apply IH.
Qed.
Definition free_name (n : text) : bool := negb (text_eqb n (tx "request") || is_host_root n).
Lemma other_vars_keys m : NoDup (map fst m) -> NoDup (map fst (other_vars m)).
Proof.
  induction m as [|[k v] m IH]; [constructor|]. cbn [map fst]. intros Hn. inversion Hn as [|? ? N1 N2]; subst. unfold other_vars. cbn [flat_map fst snd]. fold (other_vars m).
  destruct k as [z|u|b|n]; try (now apply IH). destruct (text_eqb n (tx "request") || is_host_root n); [now apply IH|]. cbn [app map fst]. constructor; [|now apply IH].
  intros Hi. apply in_map_iff in Hi as ((x & w) & Hx & Hi). cbn in Hx. subst x. unfold other_vars in Hi. apply in_flat_map in Hi as ((k & w') & H1 & H2). cbn [fst snd] in H2.
  destruct k as [z|u|b|n']; try easy. destruct (text_eqb n' (tx "request") || is_host_root n'); [easy|]. destruct H2 as [[= -> ->]|[]]. apply N1. apply in_map_iff. now exists (KStr n, w).
Qed.
Lemma other_vars_get m n : NoDup (map fst m) -> tget n (rev (other_vars m)) = if free_name n then mget n m else None.
Proof.
  intros Hn. rewrite tget_rev by now apply other_vars_keys. clear Hn. unfold free_name. induction m as [|[k v] m IH]; [now destruct (negb _)|].
  unfold other_vars. cbn [flat_map fst snd]. fold (other_vars m). unfold mget. cbn [aget]. fold (mget n m).
  destruct k as [z|u|b|x]; try exact IH. cbn [mkey_eqb]. destruct (text_eqb n x) eqn:He.
  - apply text_eqb_eq in He. subst x. destruct (text_eqb n (tx "request") || is_host_root n) eqn:Hr; cbn [negb app aget] in *; [exact IH|]. now rewrite text_eqb_refl.
  - destruct (text_eqb x (tx "request") || is_host_root x); cbn [app aget]; [exact IH|]. now rewrite He.
Qed.
Lemma stored_vars_In m c n v : In (n, v) (stored_vars m c) -> mget n m = None /\ In (n, v) (c_vals c) /\ ~ In dot n.
Proof.
  unfold stored_vars. intros H. apply in_flat_map in H as ((k & w) & H1 & H2). cbn [fst snd] in H2. destruct (text_eqb (before_char dot k) k) eqn:He; [|easy].
  destruct (mget k m) eqn:Hk; [easy|]. destruct H2 as [[= -> ->]|[]]. split; [exact Hk|]. split; [exact H1|]. apply text_eqb_eq in He. intros Hd. clear - He Hd.
  induction n as [|ch n IH]; [easy|]. cbn [before_char] in He. destruct (Ascii.eqb_spec ch dot) as [->|Hne]; [discriminate|]. injection He as He. destruct Hd as [Hd|Hd]; [easy|auto].
Qed.
Lemma stored_none m c n : (mget n m <> None \/ tget n (c_vals c) = None) -> tget n (rev (stored_vars m c)) = None.
Proof.
  intros H. apply tget_notin. intros Hi. apply in_map_iff in Hi as ((k & v) & Hk & Hi). cbn in Hk. subst k. apply in_rev in Hi. apply stored_vars_In in Hi as (H1 & H2 & _).
  destruct H as [H|H]; [easy|]. apply (aget_None text_eqb text_eqb_eq) in H. apply H. apply in_map_iff. now exists (n, v).
Qed.
Definition json_name (n : text) : bool := text_eqb n req_json_var || text_eqb n resp_json_var.
(** what a name means when an expression is evaluated *)
Lemma vars_get E ex c vs vs' m rv n : vars_of E ex c vs vs' m rv -> json_name n = false -> (mget n m <> None \/ tget n (c_vals c) = None) ->
  tget n vs' =
    if free_name n && match mget n m with Some _ => true | None => false end then mget n m
    else if mem_text n fixed_names then Some (match mget n m with Some v => v | None => VNull end)
    else if text_eqb n (tx "request") then Some rv else tget n vs.
Proof.
  intros [(qj & rj & ->) Hn _ _ _ _ _] Hj Hm. unfold json_name in Hj. apply orb_false_elim in Hj as [J1 J2]. cbn [aget]. rewrite J1, J2.
  rewrite tget_app, rev_app_distr, tget_app, (stored_none _ _ _ Hm), (other_vars_get _ _ Hn), tget_app, fixed_vars_get. cbn [aget].
  destruct (free_name n); cbn [andb]; [destruct (mget n m); [reflexivity|]|]; destruct (mem_text n fixed_names); reflexivity.
Qed.
