(** C105-C107: what the configuration file means. *)
From Coq Require Import String Ascii List NArith ZArith Bool Lia Arith Permutation.
From Verif Require Import Base Ctx Config Blueprint Factory Filter Root Serde P_Frame.
From Verif Require Prop_Decode Prop_Root.
Import Prop_Root(inputs).
Import ListNotations.
Open Scope list_scope.

(** * Specifications *)
(** the object has exactly one entry named [k], with the value [v]; or none *)
Definition has {A} (o : list (text * A)) (k : string) (v : A) : Prop :=
  exists a b, o = a ++ (tx k, v) :: b /\ ~ In (tx k) (map fst a) /\ ~ In (tx k) (map fst b).
Definition lacks {A} (o : list (text * A)) (k : string) : Prop := ~ In (tx k) (map fst o).
(** an entry that must be there; one that need not be *)
Definition field {A} (W : json -> A -> Prop) (o : list (text * json)) (k : string) (x : A) : Prop := exists v, has o k v /\ W v x.
Definition field_or {A} (W : json -> A -> Prop) (d : A) (o : list (text * json)) (k : string) (x : A) : Prop :=
  field W o k x \/ lacks o k /\ x = d.
(** [j] is an object, or the list of the values of its fields in the order [names], those with a default left out at
    the end if one likes *)
Definition struct (least : nat) (names : list string) (j : json) (o : list (text * json)) : Prop :=
  j = JObj o \/ exists l, j = JArr l /\ least <= length l <= length names /\ o = combine (map tx names) l.
Definition W_text (j : json) (t : text) : Prop := j = JStr t.
Definition W_bool (j : json) (b : bool) : Prop := j = JBool b.
Definition W_opt {A} (W : json -> A -> Prop) (j : json) (x : option A) : Prop :=
  match x with None => j = JNull | Some a => j <> JNull /\ W j a end.
Definition W_list {A} (W : json -> A -> Prop) (j : json) (l : list A) : Prop := exists js, j = JArr js /\ Forall2 W js l.
(** one of several names *)
Definition W_name {A} (names : list (string * A)) (j : json) (x : A) : Prop :=
  exists n, In (n, x) names /\ (j = JStr (tx n) \/ j = JObj [(tx n, JNull)]).
(** the names in [l] without repetitions *)
Inductive distinct : list text -> list text -> Prop :=
| di_nil : distinct [] []
| di_new l r k : distinct l r -> ~ In k l -> distinct (l ++ [k]) (r ++ [k])
| di_old l r k : distinct l r -> In k l -> distinct (l ++ [k]) r.
(** the last entry of a name counts *)
Definition W_map {A} (W : json -> A -> Prop) (j : json) (m : list (text * A)) : Prop :=
  exists o xs, j = JObj o /\ Forall2 (fun kv x => W (snd kv) x) o xs /\ distinct (map fst o) (map fst m) /\
    forall k x, In (k, x) m <-> exists a b xa xb v, o = a ++ (k, v) :: b /\ xs = xa ++ x :: xb /\ length xa = length a /\ ~ In k (map fst b).

Definition W_item (j : json) (d : data_item) : Prop :=
  exists v o key value, struct 2 (match d with DStatic _ _ => ["value"; "key"] | DExpr _ _ => ["key"; "value"] end)%string v o /\
    field W_text o "key" key /\ field W_text o "value" value /\
    (j = JObj [(tx "static", v)] /\ d = DStatic key value \/ j = JObj [(tx "expression", v)] /\ d = DExpr key value).
Definition W_cond (j : json) (c : cond_data) : Prop :=
  exists o, struct 0 ["predicates"; "data"]%string j o /\
    field_or (W_list W_text) [] o "predicates" (cd_preds c) /\ field_or (W_list W_item) [] o "data" (cd_data c).
Definition W_legacy (j : json) (a : laction) : Prop :=
  exists o sources, struct 2 ["service"; "scope"; "predicates"; "conditionalData"; "sources"]%string j o /\
    field W_text o "service" (la_service a) /\ field W_text o "scope" (la_scope a) /\
    field_or (W_list W_text) [] o "predicates" (la_preds a) /\ field_or (W_list W_cond) [] o "conditionalData" (la_cond a) /\
    field_or (W_list W_text) [] o "sources" sources.
Definition W_tag (j : json) (n : string) : Prop :=
  In n ["grpc"; "deny"; "headers"; "store"; "fail"]%string /\
  (j = JStr (tx n) \/ exists i, j = JNum (JPos (N.of_nat i)) /\ nth_error ["grpc"; "deny"; "headers"; "store"; "fail"]%string i = Some n).
(** the part all actions have *)
Definition W_common (o : list (text * json)) (predicate : text) (terminal guard seq : bool) (type : string) : Prop :=
  exists sources, field W_text o "predicate" predicate /\ field W_bool o "terminal" terminal /\ field_or W_bool true o "isGuard" guard /\
    field_or (W_name [("parallel", false); ("sequential", true)]%string) false o "execution" seq /\
    field_or (W_list W_text) [] o "sources" sources /\ field W_tag o "type" type.
Inductive W_typed : json -> taction -> Prop :=
| wt_call o p t g s v sv m label : W_common o p t g s "grpc" -> field W_text o "var" v -> field W_text o "service" sv -> field W_text o "messageBuilder" m ->
    field_or W_text [] o "label" label -> lacks o "onReply" -> W_typed (JObj o) (mkT p t g s (OpGrpc v sv m []))
| wt_call_replies o p t g s v sv m label js rs : W_common o p t g s "grpc" -> field W_text o "var" v -> field W_text o "service" sv -> field W_text o "messageBuilder" m ->
    field_or W_text [] o "label" label -> has o "onReply" (JArr js) -> Forall2 W_typed js rs -> W_typed (JObj o) (mkT p t g s (OpGrpc v sv m rs))
| wt_deny o p t g s d : W_common o p t g s "deny" -> field W_text o "denyWith" d -> W_typed (JObj o) (mkT p t g s (OpDeny d))
| wt_headers o p t g s m h : W_common o p t g s "headers" -> field (W_name [("request", MReq); ("response", MResp)]%string) o "target" m -> field W_text o "headers" h ->
    W_typed (JObj o) (mkT p t g s (OpHeaders m h))
| wt_store o p t g s path v e : W_common o p t g s "store" -> field W_text o "path" path -> field W_text o "value" v -> field_or W_bool false o "exportToHost" e ->
    W_typed (JObj o) (mkT p t g s (OpStore path v e))
| wt_fail o p t g s m : W_common o p t g s "fail" -> field W_text o "logMessage" m -> W_typed (JObj o) (mkT p t g s (OpFail m)).
(** an action is legacy only if it cannot be read as a typed one *)
Definition W_action (j : json) (a : action_cfg) : Prop :=
  match a with CTyped t => W_typed j t | CLegacy l => W_legacy j l /\ forall t, ~ W_typed j t end.
Definition W_routes (j : json) (r : list text * list text) : Prop :=
  exists o, struct 1 ["hostnames"; "predicates"]%string j o /\ field (W_list W_text) o "hostnames" (fst r) /\ field_or (W_list W_text) [] o "predicates" (snd r).
Definition W_set (j : json) (s : action_set) : Prop :=
  exists o, struct 3 ["name"; "routeRuleConditions"; "actions"]%string j o /\ field W_text o "name" (as_name s) /\
    field W_routes o "routeRuleConditions" (as_hosts s, as_preds s) /\ field (W_list W_action) o "actions" (as_actions s).
(** whole milliseconds of a duration that is not negative *)
Definition W_timeout (dur : text -> option Z) (j : json) (ms : N) : Prop :=
  exists s z, j = JStr s /\ dur s = Some z /\ (Z.of_N ms * 1000000 <= z < (Z.of_N ms + 1) * 1000000)%Z.
Definition service_types : list (string * stype) :=
  [("auth", SAuth); ("ratelimit", SRateLimit); ("ratelimit-check", SRateLimitCheck); ("ratelimit-report", SRateLimitReport); ("tracing", STracing); ("dynamic", SDynamic)]%string.
Definition W_service (dur : text -> option Z) (j : json) (s : svc_cfg) : Prop :=
  exists o, struct 6 ["type"; "endpoint"; "failureMode"; "timeout"; "grpcService"; "grpcMethod"]%string j o /\
    field (W_name service_types) o "type" (sc_type s) /\ field W_text o "endpoint" (sc_endpoint s) /\
    field (W_name [("deny", true); ("allow", false)]%string) o "failureMode" (sc_deny s) /\
    field_or (W_timeout dur) 20%N o "timeout" (sc_timeout s) /\
    field_or (W_opt W_text) None o "grpcService" (sc_grpc_service s) /\ field_or (W_opt W_text) None o "grpcMethod" (sc_grpc_method s).
Definition W_tracing (j : json) (s : text) : Prop := exists o, struct 1 ["service"]%string j o /\ field W_text o "service" s.
Definition W_observability (j : json) (x : option text * option text) : Prop :=
  exists o level, struct 3 ["httpHeaderIdentifier"; "defaultLevel"; "tracing"]%string j o /\
    field_or (W_opt W_text) None o "httpHeaderIdentifier" (fst x) /\ field_or (W_opt W_text) None o "defaultLevel" level /\
    field_or (W_opt W_tracing) None o "tracing" (snd x).
Definition W_config (dur : text -> option Z) (j : json) (c : plugin_cfg) : Prop :=
  exists o, struct 3 ["requestData"; "services"; "actionSets"; "observability"; "descriptorService"]%string j o /\
    field_or (W_map W_text) [] o "requestData" (pc_request_data c) /\ field (W_map (W_service dur)) o "services" (pc_services c) /\
    field (W_list W_set) o "actionSets" (pc_sets c) /\
    field_or W_observability (None, None) o "observability" (pc_identifier c, pc_tracing c) /\
    field_or W_text (tx "kuadrant-operator-grpc") o "descriptorService" (pc_descriptor_service c).

(** * Lemmas *)
Lemma get_has {A} (o : list (text * A)) k v : get (tx k) o = Some (Some v) <-> has o k v.
Proof.
  unfold get, has. split.
  - destruct (filter _ o) as [|[k' v'] [|]] eqn:Hf; try discriminate. intros [= ->]. revert Hf. induction o as [|[k1 v1] o IH]; [discriminate|].
    cbn [filter fst]. destruct (text_eqb (tx k) k1) eqn:Hk.
    + intros [= -> -> Hf]. apply text_eqb_eq in Hk. subst k'. exists [], o. split; [reflexivity|]. split; [easy|]. intros Hi. apply in_map_iff in Hi as ([k2 v2] & Hk2 & Hi). cbn in Hk2. subst k2.
      assert (Hx : In (tx k, v2) (filter (fun kv => text_eqb (tx k) (fst kv)) o)) by (apply filter_In; split; [exact Hi|apply text_eqb_refl]). now rewrite Hf in Hx.
    + intros Hf. destruct (IH Hf) as (a & b & -> & Ha & Hb). exists ((k1, v1) :: a), b. split; [reflexivity|]. split; [|exact Hb]. intros [Hq|Hi]; [cbn in Hq; subst k1; now rewrite text_eqb_refl in Hk|auto].
  - intros (a & b & -> & Ha & Hb).
    assert (G : forall l : list (text * A), ~ In (tx k) (map fst l) -> filter (fun kv => text_eqb (tx k) (fst kv)) l = []).
    { clear. induction l as [|[k1 v1] l IH]; [reflexivity|]. cbn [map fst filter]. intros H. destruct (text_eqb (tx k) k1) eqn:Hk; [apply text_eqb_eq in Hk; exfalso; apply H; now left|]. apply IH. intros Hi. apply H. now right. }
    rewrite filter_app. cbn [filter fst]. now rewrite text_eqb_refl, (G a Ha), (G b Hb).
Qed.
Lemma get_lacks {A} (o : list (text * A)) k : get (tx k) o = Some None <-> lacks o k.
Proof.
  unfold get, lacks. split.
  - destruct (filter _ o) as [|[k' v'] [|]] eqn:Hf; try discriminate. intros _ Hi. apply in_map_iff in Hi as ([k2 v2] & Hk2 & Hi). cbn in Hk2. subst k2.
    assert (Hx : In (tx k, v2) (filter (fun kv => text_eqb (tx k) (fst kv)) o)) by (apply filter_In; split; [exact Hi|apply text_eqb_refl]). now rewrite Hf in Hx.
  - intros H. destruct (filter _ o) as [|[k' v'] r] eqn:Hf; [reflexivity|]. exfalso. apply H.
    assert (Hx : In (k', v') (filter (fun kv => text_eqb (tx k) (fst kv)) o)) by (rewrite Hf; now left). apply filter_In in Hx as [Hi Hk]. cbn in Hk. apply text_eqb_eq in Hk. apply in_map_iff. now exists (k', v').
Qed.
(** a decoder reads exactly what is written *)
Definition reads {A} (d : json -> option A) (W : json -> A -> Prop) : Prop := forall j x, d j = Some x <-> W j x.
Lemma need_field {A} (d : json -> option A) W : reads d W -> forall k o x, need d k o = Some x <-> field W o k x.
Proof.
  intros H k o x. unfold need, field. split.
  - destruct (get (tx k) o) as [[v|]|] eqn:Hg; try discriminate. intros Hd. exists v. split; [now apply get_has|now apply H].
  - intros (v & Hv & Hw). apply get_has in Hv. rewrite Hv. now apply H.
Qed.
Lemma need_or_field {A} (d : json -> option A) W : reads d W -> forall y k o x, need_or d y k o = Some x <-> field_or W y o k x.
Proof.
  intros H y k o x. unfold need_or, field_or, field. split.
  - destruct (get (tx k) o) as [[v|]|] eqn:Hg; try discriminate.
    + intros Hd. left. exists v. split; [now apply get_has|now apply H].
    + intros [= ->]. right. split; [now apply get_lacks|reflexivity].
  - intros [(v & Hv & Hw)|[Hl ->]]; [apply get_has in Hv; rewrite Hv; now apply H|apply get_lacks in Hl; now rewrite Hl].
Qed.
Lemma fields_struct least names j o : fields least names j = Some o <-> struct least names j o.
Proof.
  unfold fields, struct. split.
  - destruct j as [|b|n|s|l|o']; try discriminate; [|intros [= ->]; now left].
    destruct (Nat.leb least (length l)) eqn:H1; [|discriminate]. destruct (Nat.leb (length l) (length names)) eqn:H2; [|discriminate]. intros [= <-]. right. exists l.
    apply Nat.leb_le in H1. apply Nat.leb_le in H2. auto.
  - intros [->|(l & -> & [H1 H2] & ->)]; [reflexivity|]. apply Nat.leb_le in H1. apply Nat.leb_le in H2. now rewrite H1, H2.
Qed.
Lemma text_reads : reads de_text W_text.
Proof. intros j x. unfold W_text. split; [|intros ->; reflexivity]. destruct j; try discriminate. now intros [= ->]. Qed.
Lemma bool_reads : reads de_bool W_bool.
Proof. intros j x. unfold W_bool. split; [|intros ->; reflexivity]. destruct j; try discriminate. now intros [= ->]. Qed.
Lemma opt_reads {A} (d : json -> option A) W : reads d W -> reads (de_opt d) (W_opt W).
Proof.
  intros H j [x|]; unfold de_opt, W_opt; split.
  - destruct j; try discriminate; (destruct (d _) eqn:Hd; [|discriminate]; intros [= ->]; split; [easy|now apply H]).
  - intros [Hn Hw]. apply H in Hw. destruct j; try now rewrite Hw. easy.
  - destruct j; try reflexivity; destruct (d _); discriminate.
  - now intros ->.
Qed.
Lemma map_opt_reads {A} (d : json -> option A) W : reads d W -> forall js xs, map_opt d js = Some xs <-> Forall2 W js xs.
Proof.
  intros H. induction js as [|j js IH]; intros xs; cbn [map_opt]; split.
  - intros [= <-]. constructor.
  - intros Hf. inversion Hf. reflexivity.
  - destruct (d j) as [y|] eqn:Hd; [|discriminate]. destruct (map_opt d js) as [ys|]; [|discriminate]. intros [= <-]. constructor; [now apply H|now apply IH].
  - intros Hf. inversion Hf as [|? y ? ys H1 H2]; subst. apply H in H1. apply IH in H2. now rewrite H1, H2.
Qed.
Lemma vec_reads {A} (d : json -> option A) W : reads d W -> reads (de_vec d) (W_list W).
Proof.
  intros H j x. unfold de_vec, W_list. split.
  - destruct j as [| | | |l|]; try discriminate. intros Hm. exists l. split; [reflexivity|]. revert Hm. now apply map_opt_reads.
  - intros (js & -> & Hf). revert Hf. now apply map_opt_reads.
Qed.

(** ** Names *)
Lemma tx_inj a b : tx a = tx b -> a = b.
Proof. unfold tx. intros H. rewrite <- (string_of_list_ascii_of_string a), <- (string_of_list_ascii_of_string b). now rewrite H. Qed.
Lemma enum_reads {A} (vs : list (string * A)) : (forall n x y, In (n, x) vs -> In (n, y) vs -> x = y) ->
  reads (de_enum (map (fun nv => (tx (fst nv), snd nv)) vs)) (W_name vs).
Proof.
  intros Hu. assert (G : forall s x, tget s (map (fun nv => (tx (fst nv), snd nv)) vs) = Some x <-> exists n, In (n, x) vs /\ s = tx n).
  { intros s x. split.
    - intros H. apply (aget_In text_eqb text_eqb_eq) in H. apply in_map_iff in H as ([n y] & [= <- <-] & Hi). eauto.
    - intros (n & Hi & ->). revert Hi. induction vs as [|[m y] vs IH]; [easy|]. cbn [map fst snd aget]. intros Hi. destruct (text_eqb (tx n) (tx m)) eqn:He.
      + apply text_eqb_eq in He. assert (m = n) as -> by (apply tx_inj; congruence). f_equal. eapply Hu; [now left|exact Hi].
      + destruct Hi as [[= -> ->]|Hi]; [now rewrite text_eqb_refl in He|]. apply IH; [|exact Hi]. intros n' a b Ha Hb. apply (Hu n'); now right. }
  intros j x. unfold W_name, de_enum. split.
  - destruct j as [| | |s| |[|[s [| | | | |]] [|]]]; try discriminate; intros H; apply G in H as (n & Hi & ->); exists n; auto.
  - intros (n & Hi & [->| ->]); apply G; eauto.
Qed.

(** ** Maps *)
Definition put_all {A} (kvs m : list (text * A)) : list (text * A) := fold_left (fun m kv => tset (fst kv) (snd kv) m) kvs m.
Lemma put_snoc {A} (kvs : list (text * A)) k x m : put_all (kvs ++ [(k, x)]) m = tset k x (put_all kvs m).
Proof. unfold put_all. now rewrite fold_left_app. Qed.
Lemma keys_tset {A} k (x : A) m : map fst (tset k x m) = if in_dec text_eq_dec k (map fst m) then map fst m else map fst m ++ [k].
Proof.
  induction m as [|[k' y] m IH]; [reflexivity|]. cbn [aset map fst in_dec]. destruct (text_eqb k k') eqn:He.
  - apply text_eqb_eq in He. subst k'. cbn [map fst]. destruct (in_dec text_eq_dec k (k :: map fst m)) as [|Hn]; [reflexivity|]. exfalso. apply Hn. now left.
  - cbn [map fst]. rewrite IH. destruct (in_dec text_eq_dec k (map fst m)) as [Hi|Hi], (in_dec text_eq_dec k (k' :: map fst m)) as [Hj|Hj]; try reflexivity.
    + exfalso. apply Hj. now right.
    + exfalso. destruct Hj as [->|Hj]; [now rewrite text_eqb_refl in He|auto].
Qed.
Lemma distinct_In l r : distinct l r -> forall k, In k r <-> In k l.
Proof.
  induction 1 as [|l r k H IH Hn|l r k H IH Hi]; intros k'; [easy| |]; rewrite ?in_app_iff, IH; [reflexivity|]. split; [auto|]. intros [|[<-|[]]]; auto.
Qed.
Lemma distinct_NoDup l r : distinct l r -> NoDup r.
Proof. induction 1 as [|l r k H IH Hn|]; auto; [constructor|]. apply (Permutation_NoDup (Permutation_cons_append r k)). constructor; [|exact IH]. now rewrite (distinct_In _ _ H). Qed.
Lemma distinct_fun l r : distinct l r -> forall r', distinct l r' -> r = r'.
Proof.
  assert (Z : forall (l : list text) k, [] <> l ++ [k]) by (intros [|]; discriminate).
  induction 1 as [|l r k H IH Hn|l r k H IH Hi]; intros r' H'; inversion H' as [E F|l' s k' D N E F|l' s k' D N E F].
  1: reflexivity. 1,2: symmetry in E; now apply Z in E. 1,4: now apply Z in E.
  - apply app_inj_tail in E as [-> ->]. f_equal. now apply IH.
  - apply app_inj_tail in E as [-> ->]. contradiction.
  - apply app_inj_tail in E as [-> ->]. contradiction.
  - apply app_inj_tail in E as [-> ->]. now apply IH.
Qed.
Lemma put_keys {A} (kvs : list (text * A)) : distinct (map fst kvs) (map fst (put_all kvs [])).
Proof.
  induction kvs as [|[k x] kvs IH] using rev_ind; [constructor|]. rewrite put_snoc, map_app, keys_tset. cbn [map fst].
  destruct (in_dec text_eq_dec k (map fst (put_all kvs []))) as [Hi|Hi]; constructor; try exact IH; now rewrite <- (distinct_In _ _ IH).
Qed.
Lemma put_get {A} (kvs : list (text * A)) k x : tget k (put_all kvs []) = Some x <-> exists a b, kvs = a ++ (k, x) :: b /\ ~ In k (map fst b).
Proof.
  induction kvs as [|[k' y] kvs IH] using rev_ind; [split; [discriminate|intros ([|] & b & H & _); discriminate]|]. rewrite put_snoc.
  destruct (text_eq_dec k k') as [<-|Hn].
  - rewrite (aget_aset_same text_eqb text_eqb_eq). split; [intros [= ->]; exists kvs, []; now split|]. intros (a & b & H & Hb). destruct b as [|z b] using rev_ind.
    + apply app_inj_tail in H as [_ [= ->]]. reflexivity.
    + exfalso. rewrite app_comm_cons, app_assoc in H. apply app_inj_tail in H as [_ <-]. apply Hb. rewrite map_app. apply in_or_app. right. now left.
  - rewrite (aget_aset_other text_eqb text_eqb_eq) by auto. rewrite IH. split.
    + intros (a & b & -> & Hb). exists a, (b ++ [(k', y)]). rewrite <- app_assoc. split; [reflexivity|]. rewrite map_app, in_app_iff. intros [H|[H|[]]]; auto.
    + intros (a & b & H & Hb). destruct b as [|z b _] using rev_ind; [apply app_inj_tail in H as [_ [= -> _]]; easy|].
      rewrite app_comm_cons, app_assoc in H. apply app_inj_tail in H as [-> <-]. exists a, b. split; [reflexivity|]. intros Hi. apply Hb. rewrite map_app. apply in_or_app. now left.
Qed.
Lemma entries_reads {A} (d : json -> option A) W : reads d W -> forall (o : list (text * json)) kvs,
  map_opt (fun kv : text * json => option_map (pair (fst kv)) (d (snd kv))) o = Some kvs <-> exists xs, Forall2 (fun kv x => W (snd kv) x) o xs /\ kvs = combine (map fst o) xs.
Proof.
  intros H. induction o as [|[k v] o IH]; intros kvs; cbn [map_opt fst snd]; split.
  - intros [= <-]. exists []. now split.
  - intros (xs & Hf & ->). inversion Hf. reflexivity.
  - destruct (d v) as [y|] eqn:Hd; [|discriminate]. cbn [option_map]. destruct (map_opt _ o) as [ys|]; [|discriminate]. intros [= <-]. destruct (proj1 (IH ys) eq_refl) as (xs & Hf & ->).
    exists (y :: xs). split; [constructor; [now apply H|exact Hf]|reflexivity].
  - intros (xs & Hf & ->). inversion Hf as [|? y ? ys H1 H2]; subst. cbn [snd] in H1. apply H in H1. rewrite H1. cbn [option_map].
    assert (Hm : map_opt (fun kv : text * json => option_map (pair (fst kv)) (d (snd kv))) o = Some (combine (map fst o) ys)) by (apply IH; eauto). now rewrite Hm.
Qed.
Lemma combine_keys {A} (o : list (text * json)) (xs : list A) : length o = length xs -> map fst (combine (map fst o) xs) = map fst o.
Proof. revert xs. induction o as [|kv o IH]; intros [|x xs]; try discriminate; [reflexivity|]. intros [= H]. cbn. now rewrite IH. Qed.
Lemma combine_split {A} (o : list (text * json)) (xs : list A) k x : length o = length xs ->
  (exists a b, combine (map fst o) xs = a ++ (k, x) :: b /\ ~ In k (map fst b)) <->
  (exists a b xa xb v, o = a ++ (k, v) :: b /\ xs = xa ++ x :: xb /\ length xa = length a /\ ~ In k (map fst b)).
Proof.
  intros Hl. split.
  - intros (a & b & H & Hb). revert o xs Hl H. induction a as [|z a IH]; intros [|[k' v] o] [|y xs]; try discriminate; intros [= Hl] H.
    + injection H as -> -> H. exists [], o, [], xs, v. repeat split. rewrite <- H, combine_keys in Hb by exact Hl. exact Hb.
    + injection H as _ H. destruct (IH o xs Hl H) as (a1 & b1 & xa & xb & v1 & -> & -> & H1 & H2). exists ((k', v) :: a1), b1, (y :: xa), xb, v1. repeat split; auto. cbn. now rewrite H1.
  - intros (a & b & xa & xb & v & -> & -> & H1 & H2). exists (combine (map fst a) xa), (combine (map fst b) xb). rewrite map_app. cbn [map fst].
    assert (Hlb : length b = length xb) by (rewrite !app_length in Hl; cbn in Hl; lia). split; [|now rewrite combine_keys].
    clear - H1. revert xa H1. induction a as [|z a IH]; intros [|y xa]; try discriminate; [reflexivity|]. intros [= H]. cbn. now rewrite IH.
Qed.
Lemma NoDup_same {A} (m m' : list (text * A)) : NoDup (map fst m) -> map fst m = map fst m' -> (forall k x, In (k, x) m <-> In (k, x) m') -> m = m'.
Proof.
  revert m'. induction m as [|[k x] m IH]; intros [|[k' x'] m']; cbn [map fst]; intros Hd He Hi; try discriminate; [reflexivity|]. injection He as <- He. inversion Hd as [|? ? Hn Hd']; subst.
  assert (x = x') as <-.
  { destruct (proj1 (Hi k x) (or_introl eq_refl)) as [[= ->]|H]; [reflexivity|]. exfalso. apply Hn. rewrite He. apply in_map_iff. now exists (k, x). }
  f_equal. apply IH; [exact Hd'|exact He|]. intros k1 x1. split; intros H.
  - destruct (proj1 (Hi k1 x1) (or_intror H)) as [[= -> ->]|H']; [|exact H']. exfalso. apply Hn. apply in_map_iff. now exists (k1, x1).
  - destruct (proj2 (Hi k1 x1) (or_intror H)) as [[= -> ->]|H']; [|exact H']. exfalso. apply Hn. rewrite He. apply in_map_iff. now exists (k1, x1).
Qed.
Lemma In_tget {A} (m : list (text * A)) : NoDup (map fst m) -> forall k x, In (k, x) m <-> tget k m = Some x.
Proof.
  induction m as [|[k' y] m IH]; intros Hd k x; [easy|]. cbn [map fst] in Hd. inversion Hd as [|? ? Hn Hd']; subst. cbn [aget]. destruct (text_eqb k k') eqn:He.
  - apply text_eqb_eq in He as <-. split; [|intros [= ->]; now left]. intros [[= ->]|H]; [reflexivity|]. exfalso. apply Hn. apply in_map_iff. now exists (k, x).
  - rewrite <- (IH Hd'). split; [|now right]. intros [[= -> ->]|H]; [now rewrite text_eqb_refl in He|exact H].
Qed.
Lemma two_length {A B} {P : A -> B -> Prop} {l m} : Forall2 P l m -> length l = length m.
Proof. induction 1; cbn; congruence. Qed.
Lemma map_reads {A} (d : json -> option A) W : reads d W -> reads (de_map d) (W_map W).
Proof.
  intros H j m. unfold de_map, W_map. split.
  - destruct j as [| | | | |o]; try discriminate. destruct (map_opt _ o) as [kvs|] eqn:Hm; [|discriminate]. apply (entries_reads d W H) in Hm as (xs & Hf & ->). intros [= <-].
    exists o, xs. split; [reflexivity|]. split; [exact Hf|]. pose proof (two_length Hf) as Hl. pose proof (put_keys (combine (map fst o) xs)) as Hk. rewrite combine_keys in Hk by exact Hl.
    split; [exact Hk|]. intros k x. fold (put_all (combine (map fst o) xs) []). rewrite (In_tget _ (distinct_NoDup _ _ Hk)), put_get. now apply combine_split.
  - intros (o & xs & -> & Hf & Hk & Hi). pose proof (two_length Hf) as Hl.
    assert (Hm : map_opt (fun kv : text * json => option_map (pair (fst kv)) (d (snd kv))) o = Some (combine (map fst o) xs)) by (apply (entries_reads d W H); eauto). rewrite Hm. cbn [option_map]. f_equal.
    fold (put_all (combine (map fst o) xs) []). pose proof (put_keys (combine (map fst o) xs)) as Hp. rewrite combine_keys in Hp by exact Hl.
    apply NoDup_same; [exact (distinct_NoDup _ _ Hp)|exact (distinct_fun _ _ Hp _ Hk)|]. intros k x. rewrite (In_tget _ (distinct_NoDup _ _ Hp)), put_get, Hi. now apply combine_split.
Qed.

(** ** Structs *)
Lemma bind_some {A B} (x : option A) (f : A -> option B) y : bind x f = Some y <-> exists a, x = Some a /\ f a = Some y.
Proof. unfold bind. destruct x as [a|]; split; [eauto|intros (a' & [= ->] & H); exact H|discriminate|intros (a & [=] & _)]. Qed.
Ltac unbind := repeat match goal with
  | H : bind _ _ = Some _ |- _ => apply bind_some in H as (? & ? & H)
  | H : fields _ _ _ = Some _ |- _ => apply fields_struct in H
  end.
Lemma item_reads : reads de_item W_item.
Proof.
  intros j d. unfold W_item, de_item. split.
  - destruct j as [| | | | |[|[k v] [|]]]; try discriminate. destruct (text_eqb k (tx "static")) eqn:H1; [|destruct (text_eqb k (tx "expression")) eqn:H2; [|discriminate]].
    + apply text_eqb_eq in H1 as ->. intros H. unbind. injection H as <-. do 4 eexists. split; [eassumption|]. split; [eapply need_field; [exact text_reads|eassumption]|].
      split; [eapply need_field; [exact text_reads|eassumption]|]. now left.
    + apply text_eqb_eq in H2 as ->. intros H. unbind. injection H as <-. do 4 eexists. split; [eassumption|]. split; [eapply need_field; [exact text_reads|eassumption]|].
      split; [eapply need_field; [exact text_reads|eassumption]|]. now right.
  - intros (v & o & key & value & Hs & Hk & Hv & Hj). apply fields_struct in Hs. apply (need_field _ _ text_reads) in Hk. apply (need_field _ _ text_reads) in Hv.
    destruct Hj as [[-> ->]|[-> ->]]; cbn [text_eqb]; cbn in Hs |- *; rewrite Hs; cbn [bind]; now rewrite Hk, Hv.
Qed.
Ltac fwd R := match goal with
  | H : need _ ?k ?o = Some _ |- field _ ?o ?k _ => apply (need_field _ _ R); exact H
  | H : need_or _ _ ?k ?o = Some _ |- field_or _ _ ?o ?k _ => apply (need_or_field _ _ R); exact H
  end.
Ltac bwd R := match goal with
  | H : field _ _ _ _ |- _ => apply (need_field _ _ R) in H
  | H : field_or _ _ _ _ _ |- _ => apply (need_or_field _ _ R) in H
  end.
Ltac chain_rw := repeat match goal with
  | H : ?x = Some _ |- context [bind ?x _] => rewrite H; cbn [bind fst snd]
  end.
Definition texts_reads := vec_reads _ _ text_reads.
Lemma cond_reads : reads de_cond W_cond.
Proof.
  pose proof (vec_reads _ _ item_reads) as R. intros j [ps ds]. unfold W_cond, de_cond. cbn [cd_preds cd_data]. split.
  - intros H. unbind. injection H as <- <-. eexists. split; [eassumption|]. split; [fwd texts_reads|fwd R].
  - intros (o & Hs & H1 & H2). apply fields_struct in Hs. bwd texts_reads. bwd R. chain_rw. reflexivity.
Qed.
Lemma legacy_reads : reads de_legacy W_legacy.
Proof.
  pose proof (vec_reads _ _ cond_reads) as R. intros j [sv sc ps cd]. unfold W_legacy, de_legacy. cbn [la_service la_scope la_preds la_cond]. split.
  - intros H. unbind. injection H as <- <- <- <-. do 2 eexists. split; [eassumption|]. split; [fwd text_reads|]. split; [fwd text_reads|]. split; [fwd texts_reads|]. split; [fwd R|]. fwd texts_reads.
  - intros (o & sources & Hs & H1 & H2 & H3 & H4 & H5). apply fields_struct in Hs. repeat bwd text_reads. bwd R. repeat bwd texts_reads. chain_rw. reflexivity.
Qed.
Lemma tag_reads : forall j n, W_tag j n <-> exists t, de_tag j = Some t /\ n = match t with GGrpc => "grpc" | GDeny => "deny" | GHeaders => "headers" | GStore => "store" | GFail => "fail" end%string.
Proof.
  intros j n. unfold W_tag. split.
  - intros (Hi & [->|(i & -> & Hn)]).
    + destruct Hi as [<-|[<-|[<-|[<-|[<-|[]]]]]]; eexists; (split; [reflexivity|reflexivity]).
    + cbn [de_tag]. rewrite Nat2N.id. do 5 (destruct i as [|i]; [injection Hn as <-; eexists; split; reflexivity|]). destruct i; discriminate.
  - intros (t & Ht & ->). split; [destruct t; cbn; tauto|]. destruct j as [| |[k|z|x]|s| |]; try discriminate.
    + right. cbn [de_tag] in Ht. exists (N.to_nat k). rewrite N2Nat.id. split; [reflexivity|]. revert Ht. generalize (N.to_nat k). intros i Ht. do 5 (destruct i as [|i]; [injection Ht as <-; reflexivity|]). destruct i; discriminate.
    + left. cbn [de_tag] in Ht. apply (aget_In text_eqb text_eqb_eq) in Ht. cbn in Ht. destruct Ht as [[= <- <-]|[[= <- <-]|[[= <- <-]|[[= <- <-]|[[= <- <-]|[]]]]]]; reflexivity.
Qed.

Lemma exec_reads : reads de_exec (W_name [("parallel", false); ("sequential", true)]%string).
Proof. apply (enum_reads [("parallel", false); ("sequential", true)]%string). intros n x y. cbn. intuition congruence. Qed.
Lemma target_reads : reads de_target (W_name [("request", MReq); ("response", MResp)]%string).
Proof. apply (enum_reads [("request", MReq); ("response", MResp)]%string). intros n x y. cbn. intuition congruence. Qed.
Lemma mode_reads : reads de_mode (W_name [("deny", true); ("allow", false)]%string).
Proof. apply (enum_reads [("deny", true); ("allow", false)]%string). intros n x y. cbn. intuition congruence. Qed.
Lemma stype_reads : reads de_stype (W_name service_types).
Proof. apply (enum_reads service_types). intros n x y. cbn. intuition congruence. Qed.

(** ** Actions *)
Definition replies_of (v : json) : option (list taction) := match v with JArr l => map_opt de_typed l | _ => None end.
Definition reps (o : list (text * json)) : list (text * option (list taction)) := map (fun kv => (fst kv, replies_of (snd kv))) o.
Lemma de_typed_obj o : de_typed (JObj o) = de_taction_with o (reps o).
Proof.
  unfold reps.   cbn [de_typed]. f_equal. induction o as [|[k v] o IH]; [reflexivity|]. cbn [map fst snd]. rewrite <- IH. f_equal. f_equal. unfold replies_of. destruct v as [| | | |l|]; try reflexivity.
  induction l as [|a l IHl]; [reflexivity|]. cbn [map_opt]. now rewrite <- IHl.
Qed.
Lemma has_map {A B} (f : A -> B) (o : list (text * A)) k y : has (map (fun kv => (fst kv, f (snd kv))) o) k y <-> exists v, has o k v /\ y = f v.
Proof.
  assert (M : forall l : list (text * A), map fst (map (fun kv => (fst kv, f (snd kv))) l) = map fst l) by (intros l; rewrite map_map; reflexivity).
  split.
  - intros (a & b & H & Ha & Hb). apply map_eq_app in H as (a' & b' & -> & <- & H). destruct b' as [|[k' v] b']; [discriminate|]. cbn in H. injection H as -> <- <-. rewrite M in *.
    exists v. split; [|reflexivity]. exists a', b'. auto.
  - intros (v & (a & b & -> & Ha & Hb) & ->). exists (map (fun kv => (fst kv, f (snd kv))) a), (map (fun kv => (fst kv, f (snd kv))) b). rewrite map_app. now rewrite !M.
Qed.
Lemma lacks_map {A B} (f : A -> B) (o : list (text * A)) k : lacks (map (fun kv => (fst kv, f (snd kv))) o) k <-> lacks o k.
Proof. unfold lacks. rewrite map_map. reflexivity. Qed.
Lemma replies_need o rs : need_or (fun r => r) [] "onReply" (reps o) = Some rs <->
  (lacks o "onReply" /\ rs = []) \/ exists js, has o "onReply" (JArr js) /\ map_opt de_typed js = Some rs.
Proof.
  unfold need_or, reps. split.
  - destruct (get _ _) as [[v|]|] eqn:Hg; try discriminate.
    + intros ->. apply get_has, has_map in Hg as (w & Hw & Hr). right. destruct w as [| | | |l|]; try discriminate. exists l. split; [exact Hw|now symmetry].
    + intros [= <-]. left. apply get_lacks, lacks_map in Hg. auto.
  - intros [[Hl ->]|(js & Hh & Hm)].
    + apply (lacks_map replies_of), get_lacks in Hl. now rewrite Hl.
    + assert (Hx : has (map (fun kv : text * json => (fst kv, replies_of (snd kv))) o) "onReply" (replies_of (JArr js))) by (apply has_map; eauto). apply get_has in Hx. rewrite Hx. exact Hm.
Qed.
Definition tag_name (t : optag) : string := match t with GGrpc => "grpc" | GDeny => "deny" | GHeaders => "headers" | GStore => "store" | GFail => "fail" end%string.
Lemma need_tag o t : need de_tag "type" o = Some t <-> field W_tag o "type" (tag_name t).
Proof.
  unfold need, field. split.
  - destruct (get _ o) as [[v|]|] eqn:Hg; try discriminate. intros H. exists v. split; [now apply get_has|]. apply tag_reads. eauto.
  - intros (v & Hv & Hw). apply get_has in Hv. rewrite Hv. apply tag_reads in Hw as (t' & Ht & He). rewrite Ht. f_equal. destruct t, t'; try reflexivity; discriminate.
Qed.
Lemma typed_with o : (forall js rs, has o "onReply" (JArr js) -> map_opt de_typed js = Some rs <-> Forall2 W_typed js rs) -> forall t, de_typed (JObj o) = Some t <-> W_typed (JObj o) t.
Proof.
  intros HR t. rewrite de_typed_obj. unfold de_taction_with, de_oper. split.
  - intros H. unbind. injection H as <-. match goal with H : need de_tag _ _ = Some ?x |- _ => apply need_tag in H; rename x into tag end.
    assert (HC : W_common o x x0 x1 x2 (tag_name tag)) by (eexists; split; [fwd text_reads|]; split; [fwd bool_reads|]; split; [fwd bool_reads|]; split; [fwd exec_reads|]; split; [fwd texts_reads|assumption]).
    match goal with H : match tag with _ => _ end = Some _ |- _ => rename H into HO end. destruct tag; unbind; injection HO as <-; cbn [tag_name] in HC.
    + match goal with H : need_or (fun r => r) _ _ _ = Some _ |- _ => apply replies_need in H as [[Hl ->]|(js & Hh & Hm)] end.
      * eapply wt_call; [exact HC|fwd text_reads|fwd text_reads|fwd text_reads|fwd text_reads|exact Hl].
      * eapply wt_call_replies; [exact HC|fwd text_reads|fwd text_reads|fwd text_reads|fwd text_reads|exact Hh|]. revert Hm. now apply HR.
    + eapply wt_deny; [exact HC|fwd text_reads].
    + eapply wt_headers; [exact HC|fwd target_reads|fwd text_reads].
    + eapply wt_store; [exact HC|fwd text_reads|fwd text_reads|fwd bool_reads].
    + eapply wt_fail; [exact HC|fwd text_reads].
  - intros H. assert (HC : exists p t0 g s op tg, t = mkT p t0 g s op /\ W_common o p t0 g s (tag_name tg) /\ match tg, op with GGrpc, OpGrpc _ _ _ _ | GDeny, OpDeny _ | GHeaders, OpHeaders _ _ | GStore, OpStore _ _ _ | GFail, OpFail _ => True | _, _ => False end).
    { inversion H; subst; [eexists _, _, _, _, _, GGrpc|eexists _, _, _, _, _, GGrpc|eexists _, _, _, _, _, GDeny|eexists _, _, _, _, _, GHeaders|eexists _, _, _, _, _, GStore|eexists _, _, _, _, _, GFail]; (split; [reflexivity|]; split; [eassumption|exact Logic.I]). }
    destruct HC as (p & t0 & g & s & op & tg & -> & (sources & C1 & C2 & C3 & C4 & C5 & C6) & Hm). apply need_tag in C6.
    repeat bwd text_reads. repeat bwd bool_reads. bwd exec_reads. bwd texts_reads. chain_rw.
    destruct tg, op; try destruct Hm; inversion H; subst; repeat bwd text_reads; repeat bwd bool_reads; repeat bwd target_reads; chain_rw; try reflexivity.
    + assert (Hr : need_or (fun r => r) [] "onReply" (reps o) = Some []) by (apply replies_need; now left). chain_rw. reflexivity.
    + assert (Hr : need_or (fun r => r) [] "onReply" (reps o) = Some on_reply) by (apply replies_need; right; eexists; split; [eassumption|]; now apply HR). chain_rw. reflexivity.
Qed.
Lemma map_opt_local {A} (d : json -> option A) W js : Forall (fun j => forall x, d j = Some x <-> W j x) js -> forall xs, map_opt d js = Some xs <-> Forall2 W js xs.
Proof.
  induction 1 as [|j js H _ IH]; intros xs; cbn [map_opt]; split.
  - intros [= <-]. constructor.
  - intros Hf. inversion Hf. reflexivity.
  - destruct (d j) as [y|] eqn:Hd; [|discriminate]. destruct (map_opt d js) as [ys|]; [|discriminate]. intros [= <-]. constructor; [now apply H|now apply IH].
  - intros Hf. inversion Hf as [|? y ? ys H1 H2]; subst. apply H in H1. apply IH in H2. now rewrite H1, H2.
Qed.
Lemma typed_reads : reads de_typed W_typed.
Proof.
  intros j. enough (G : (forall x, de_typed j = Some x <-> W_typed j x) /\ forall l, j = JArr l -> Forall (fun j => forall x, de_typed j = Some x <-> W_typed j x) l) by apply G.
  induction j as [|b|n|s|l IH|o IH] using Prop_Decode.json_ind'; (split; [|intros l' E; try discriminate E]); try (intros x; split; [discriminate|intros H; now inversion H]).
  - injection E as <-. rewrite Forall_forall in *. intros j Hj. now apply IH.
  - apply typed_with. intros js rs (a & b & -> & _). apply map_opt_local. rewrite Forall_forall in IH. destruct (IH (tx "onReply", JArr js)) as [_ H]; [apply in_or_app; right; now left|]. now apply H.
Qed.
Lemma action_reads : reads de_action W_action.
Proof.
  intros j a. unfold de_action, W_action. split.
  - destruct (de_typed j) as [t|] eqn:Ht; [intros [= <-]; now apply typed_reads|]. destruct (de_legacy j) as [l|] eqn:Hl; [|discriminate]. intros [= <-]. split; [now apply legacy_reads|].
    intros t Hw. apply typed_reads in Hw. congruence.
  - destruct a as [t|l].
    + intros Hw. apply typed_reads in Hw. now rewrite Hw.
    + intros [Hw Hn]. destruct (de_typed j) as [t|] eqn:Ht; [apply typed_reads in Ht; now apply Hn in Ht|]. apply legacy_reads in Hw. now rewrite Hw.
Qed.

(** ** Sets, services and the rest *)
Lemma routes_reads : reads de_routes W_routes.
Proof.
  intros j [hs ps]. unfold W_routes, de_routes. cbn [fst snd]. split.
  - intros H. unbind. injection H as <- <-. eexists. split; [eassumption|]. split; fwd texts_reads.
  - intros (o & Hs & H1 & H2). apply fields_struct in Hs. repeat bwd texts_reads. chain_rw. reflexivity.
Qed.
Lemma set_reads : reads de_set W_set.
Proof.
  pose proof (vec_reads _ _ action_reads) as R. intros j [n hs ps acts]. unfold W_set, de_set. cbn [as_name as_hosts as_preds as_actions]. split.
  - intros H. unbind. destruct x1 as [hs' ps']. injection H as <- <- <- <-. eexists. split; [eassumption|]. split; [fwd text_reads|]. split; [fwd routes_reads|]. fwd R.
  - intros (o & Hs & H1 & H2 & H3). apply fields_struct in Hs. bwd text_reads. bwd routes_reads. bwd R. chain_rw. reflexivity.
Qed.
Lemma timeout_reads dur : reads (de_timeout dur) (W_timeout dur).
Proof.
  intros j ms. unfold de_timeout, W_timeout. split.
  - destruct j as [| | |s| |]; try discriminate. destruct (dur s) as [z|] eqn:Hz; [|discriminate]. destruct (Z.ltb_spec z 0) as [|Hp]; [discriminate|]. intros [= <-]. exists s, z. split; [reflexivity|]. split; [exact Hz|].
    rewrite N2Z.inj_div, Z2N.id by lia. change (Z.of_N 1000000) with 1000000%Z. pose proof (Z.mul_div_le z 1000000). pose proof (Z.mul_succ_div_gt z 1000000). lia.
  - intros (s & z & -> & -> & Hb). destruct (Z.ltb_spec z 0) as [Hn|Hp]; [lia|]. f_equal. apply N2Z.inj. rewrite N2Z.inj_div, Z2N.id by lia. change (Z.of_N 1000000) with 1000000%Z.
    symmetry. apply Z.div_unique with (r := (z - 1000000 * Z.of_N ms)%Z); lia.
Qed.
Lemma service_reads dur : reads (de_service dur) (W_service dur).
Proof.
  pose proof (timeout_reads dur) as R1. pose proof (opt_reads _ _ text_reads) as R2. intros j [ty ep fm to gs gm]. unfold W_service, de_service. cbn [sc_type sc_endpoint sc_deny sc_timeout sc_grpc_service sc_grpc_method]. split.
  - intros H. unbind. injection H as <- <- <- <- <- <-. eexists. split; [eassumption|]. split; [fwd stype_reads|]. split; [fwd text_reads|]. split; [fwd mode_reads|]. split; [fwd R1|]. split; fwd R2.
  - intros (o & Hs & H1 & H2 & H3 & H4 & H5 & H6). apply fields_struct in Hs. bwd text_reads. bwd stype_reads. bwd mode_reads. bwd R1. repeat bwd R2. chain_rw. reflexivity.
Qed.
Lemma tracing_reads : reads de_tracing W_tracing.
Proof.
  intros j s. unfold W_tracing, de_tracing. split.
  - intros H. unbind. eexists. split; [eassumption|]. fwd text_reads.
  - intros (o & Hs & H1). apply fields_struct in Hs. bwd text_reads. chain_rw. exact H1.
Qed.
Lemma observability_reads : reads de_observability W_observability.
Proof.
  pose proof (opt_reads _ _ text_reads) as R1. pose proof (opt_reads _ _ tracing_reads) as R2. intros j [h t]. unfold W_observability, de_observability. cbn [fst snd]. split.
  - intros H. unbind. injection H as <- <-. do 2 eexists. split; [eassumption|]. split; [fwd R1|]. split; [fwd R1|]. fwd R2.
  - intros (o & level & Hs & H1 & H2 & H3). apply fields_struct in Hs. repeat bwd R1. bwd R2. chain_rw. reflexivity.
Qed.

(** * C105 *)
(** A configuration document is accepted exactly if it is written as documented, and then it means what is
    written: every service, every action set and every action, in order, with the documented defaults. *)
Theorem C105_configuration_means_what_is_written : forall dur j c, de_config dur j = Some c <-> W_config dur j c.
Proof.
  intros dur. pose proof (map_reads _ _ text_reads) as R1. pose proof (map_reads _ _ (service_reads dur)) as R2. pose proof (vec_reads _ _ set_reads) as R3.
  intros j [rd sv sets h t ds]. unfold W_config, de_config. cbn [pc_request_data pc_services pc_sets pc_identifier pc_tracing pc_descriptor_service]. split.
  - intros H. unbind. destruct x3 as [h' t']. injection H as <- <- <- <- <- <-. eexists. split; [eassumption|]. split; [fwd R1|]. split; [fwd R2|]. split; [fwd R3|]. split; [fwd observability_reads|]. fwd text_reads.
  - intros (o & Hs & H1 & H2 & H3 & H4 & H5). apply fields_struct in Hs. bwd R1. bwd R2. bwd R3. bwd observability_reads. bwd text_reads. chain_rw. reflexivity.
Qed.
Print Assumptions C105_configuration_means_what_is_written.
(** The root context is configured with bytes: each request is served by a document read that way, or by none. *)
Theorem C105_requests_are_served_by_a_written_configuration parse dur R E Es h1 id h2 :
  let v := vrun R E Es (h1 ++ VCreate id :: h2) in
  (forall c, In (VConfigure c) h1 -> exists bytes, c = read_config parse dur bytes) ->
  o_parse (Es id) = o_parse E -> o_alpha (Es id) = o_alpha E -> v_dead v = false -> ~ In (VCreate id) h2 ->
  exists fa, aget N.eqb id (v_ctxs v) = Some (fa, frun (Es id) fa (inputs id h2)) /\
    (fa = factory0 \/ exists bytes j cfg, In (VConfigure (read_config parse dur (Some bytes))) h1 /\ parse bytes = Some j /\ W_config dur j cfg /\ try_from (Es id) cfg = Some fa).
Proof.
  intros v Hc Hp Ha Hd Hn. destruct (Prop_Root.C63_requests_are_served_by_a_compiled_configuration R E Es h1 id h2 Hp Ha Hd Hn) as (fa & Hf & Hor). exists fa. split; [exact Hf|].
  destruct Hor as [->|(cfg & Hi & Ht)]; [now left|]. right. destruct (Hc _ Hi) as (bytes & Hb). unfold read_config in Hb. symmetry in Hb. pose proof Hb as Hb'. apply bind_some in Hb as (b & -> & Hb). apply bind_some in Hb as (j & Hj & Hb).
  exists b, j, cfg. unfold read_config. rewrite Hb'. split; [exact Hi|]. split; [exact Hj|]. split; [|exact Ht]. now apply C105_configuration_means_what_is_written.
Qed.
Print Assumptions C105_requests_are_served_by_a_written_configuration.

(** * C106 *)
(** The order of the entries of an object means nothing: the same document, with the entries in another order *)
Inductive same : json -> json -> Prop :=
| s_leaf j : same j j
| s_arr l l' : length l = length l' -> (forall i v v', nth_error l i = Some v -> nth_error l' i = Some v' -> same v v') -> same (JArr l) (JArr l')
| s_obj o o' : NoDup (map fst o) -> NoDup (map fst o') -> (forall k, In k (map fst o) <-> In k (map fst o')) ->
    (forall k v v', In (k, v) o -> In (k, v') o' -> same v v') -> same (JObj o) (JObj o').
Lemma same_sym j j' : same j j' -> same j' j.
Proof.
  induction 1 as [j|l l' Hl H IH|o o' H1 H2 Hk H IH]; [constructor| |].
  - constructor; [auto|]. intros i v v' Hv Hv'. now apply (IH i).
  - constructor; auto; [|intros k v v' Hv Hv'; now apply (IH k)]. intros k. symmetry. apply Hk.
Qed.
Definition alike (R : json -> json -> Prop) (o o' : list (text * json)) : Prop :=
  (forall k v, has o k v -> exists v', has o' k v' /\ R v v') /\ (forall k, lacks o k -> lacks o' k).
Lemma has_In {A} (o : list (text * A)) k v : has o k v -> In (tx k, v) o.
Proof. intros (a & b & -> & _). apply in_or_app. right. now left. Qed.
Lemma In_has {A} (o : list (text * A)) k v : NoDup (map fst o) -> In (tx k, v) o -> has o k v.
Proof.
  intros Hn Hi. apply in_split in Hi as (a & b & ->). rewrite map_app in Hn. cbn [map fst] in Hn. apply NoDup_remove_2 in Hn. rewrite in_app_iff in Hn. exists a, b. split; [reflexivity|]. split; intros Hi; apply Hn; [now left|now right].
Qed.
Lemma obj_alike (R : json -> json -> Prop) o o' : NoDup (map fst o') -> (forall k, In k (map fst o) <-> In k (map fst o')) ->
  (forall k v v', In (k, v) o -> In (k, v') o' -> R v v') -> alike R o o'.
Proof.
  intros Hn Hk H. split.
  - intros k v Hv. apply has_In in Hv. assert (Hi : In (tx k) (map fst o')) by (apply Hk; apply in_map_iff; now exists (tx k, v)). apply in_map_iff in Hi as ([k' v'] & Hq & Hi). cbn in Hq. subst k'.
    exists v'. split; [now apply In_has|]. now apply (H (tx k)).
  - intros k Hl Hi. apply Hl. now apply Hk.
Qed.
Lemma alike_refl (R : json -> json -> Prop) o : (forall v, R v v) -> alike R o o.
Proof. intros H. split; eauto. Qed.
Lemma combine_alike names l : NoDup names -> forall l', length l = length l' -> (forall i v v', nth_error l i = Some v -> nth_error l' i = Some v' -> same v v') ->
  alike same (combine (map tx names) l) (combine (map tx names) l').
Proof.
  intros Hd l' Hl H. assert (Hkeys : forall (l : list json), map fst (combine (map tx names) l) = firstn (length l) (map tx names)).
  { clear. induction (map tx names) as [|n ns IH]; intros [|v l]; cbn; [reflexivity..|]. now rewrite IH. }
  assert (Hdm : NoDup (map tx names)).
  { clear - Hd. induction Hd as [|n ns Hn _ IH]; cbn; constructor; [|exact IH]. intros Hi. apply in_map_iff in Hi as (m & He & Hi). apply tx_inj in He. now subst. }
  apply obj_alike.
  - rewrite Hkeys. clear - Hdm. revert l'. induction Hdm as [|n ns Hn _ IH]; intros [|v l']; cbn; constructor; [|apply IH]. intros Hi. apply Hn. rewrite <- (firstn_skipn (length l') ns). apply in_or_app. now left.
  - intros k. now rewrite !Hkeys, Hl.
  - intros k v v' Hi Hi'. clear Hkeys Hd. revert l l' Hl H Hi Hi'. induction Hdm as [|n ns Hn _ IH]; intros [|v1 l] [|v1' l'] Hl H; try discriminate; cbn; try easy. injection Hl as Hl.
    assert (Hk : forall (l : list json) v, In (k, v) (combine ns l) -> In k ns) by (intros l0 v0; apply in_combine_l).
    intros [Hq|Hi] [Hq'|Hi'].
    + injection Hq as -> ->. injection Hq' as ->. now apply (H 0).
    + injection Hq as -> ->. exfalso. apply Hn. eapply Hk. exact Hi'.
    + injection Hq' as -> ->. exfalso. apply Hn. eapply Hk. exact Hi.
    + apply (IH l l' Hl); auto. intros i w w' Hw Hw'. now apply (H (S i)).
Qed.
Definition stable {A} (W : json -> A -> Prop) : Prop := forall j x, W j x -> forall j', same j j' -> W j' x.
Lemma struct_same least names j o j' : NoDup names -> struct least names j o -> same j j' -> exists o', struct least names j' o' /\ alike same o o'.
Proof.
  intros Hd Hs Hj. inversion Hj as [j0 E1 E2|l l' Hl H E1 E2|o1 o2 H1 H2 Hk H E1 E2]; subst.
  - exists o. split; [exact Hs|]. apply alike_refl. constructor.
  - destruct Hs as [Hq|(l0 & [= <-] & Hb & ->)]; [discriminate|]. exists (combine (map tx names) l'). split; [right; exists l'; rewrite <- Hl; auto|]. now apply combine_alike.
  - destruct Hs as [[= <-]|(l0 & Hq & _)]; [|discriminate]. exists o2. split; [now left|]. now apply obj_alike.
Qed.
Lemma field_same {A} (W : json -> A -> Prop) k o o' x : stable W -> alike same o o' -> field W o k x -> field W o' k x.
Proof. intros HW [Ha _] (v & Hv & Hw). destruct (Ha k v Hv) as (v' & Hv' & Hs). exists v'. split; [exact Hv'|]. eapply HW; eassumption. Qed.
Lemma field_or_same {A} (W : json -> A -> Prop) k d o o' x : stable W -> alike same o o' -> field_or W d o k x -> field_or W d o' k x.
Proof. intros HW Ha [H|[Hl ->]]; [left; eapply field_same; eassumption|]. right. split; [now apply Ha|reflexivity]. Qed.
Lemma text_stable : stable W_text.
Proof. intros j x -> j' Hs. now inversion Hs. Qed.
Lemma bool_stable : stable W_bool.
Proof. intros j x -> j' Hs. now inversion Hs. Qed.
Lemma same_null j : same JNull j -> j = JNull.
Proof. intros H. now inversion H. Qed.
Lemma opt_stable {A} (W : json -> A -> Prop) : stable W -> stable (W_opt W).
Proof.
  intros HW j [x|] H j' Hs; [|cbn in *; subst; now apply same_null]. destruct H as [Hn Hw]. split; [|eapply HW; eassumption]. intros ->. apply Hn. apply same_null. now apply same_sym.
Qed.
Lemma list_same {A} (W : json -> A -> Prop) : stable W -> forall l l' xs, length l = length l' -> (forall i v v', nth_error l i = Some v -> nth_error l' i = Some v' -> same v v') -> Forall2 W l xs -> Forall2 W l' xs.
Proof.
  intros HW. induction l as [|v l IH]; intros [|v' l'] xs Hl H Hf; try discriminate; inversion Hf as [|? x ? ys H1 H2]; subst; constructor.
  - eapply HW; [exact H1|]. now apply (H 0).
  - apply IH; auto. intros i w w' Hw Hw'. now apply (H (S i)).
Qed.
Lemma list_stable {A} (W : json -> A -> Prop) : stable W -> stable (W_list W).
Proof.
  intros HW j xs (js & -> & Hf) j' Hs. inversion Hs as [|l l' Hl H|]; subst; [now exists js|]. exists l'. split; [reflexivity|]. eapply list_same; eassumption.
Qed.
Lemma singleton_same k v j' : same (JObj [(k, v)]) j' -> exists v', j' = JObj [(k, v')] /\ same v v'.
Proof.
  intros Hs. inversion Hs as [| |o o' H1 H2 Hk H]; subst; [exists v; split; [reflexivity|constructor]|].
  destruct o' as [|[k1 v1] [|[k2 v2] o']].
  - exfalso. destruct (proj1 (Hk k) (or_introl eq_refl)).
  - destruct (proj2 (Hk k1) (or_introl eq_refl)) as [Hq|[]]. cbn in Hq. subst k1. exists v1. split; [reflexivity|]. apply (H k); now left.
  - exfalso. destruct (proj2 (Hk k1) (or_introl eq_refl)) as [Hq|[]]. destruct (proj2 (Hk k2) (or_intror (or_introl eq_refl))) as [Hq'|[]]. cbn in Hq, Hq'. subst. inversion H2 as [|? ? Hn]. apply Hn. now left.
Qed.
Lemma name_stable {A} (ns : list (string * A)) : stable (W_name ns).
Proof.
  intros j x (n & Hi & [->| ->]) j' Hs; exists n; (split; [exact Hi|]); [left; now inversion Hs|right]. apply singleton_same in Hs as (v' & -> & Hv). now apply same_null in Hv as ->.
Qed.
Lemma tag_stable : stable W_tag.
Proof. intros j x [Hi [->|(i & -> & Hn)]] j' Hs; (split; [exact Hi|]); [left; now inversion Hs|right; exists i; split; [now inversion Hs|exact Hn]]. Qed.
Ltac distinct_names := repeat (constructor; [cbn; intuition discriminate|]); constructor.
Tactic Notation "restruct" hyp(Hs) hyp(Hj) "as" ident(o') ident(Hs') ident(Ha) :=
  let F := fresh in pose proof (fun D => struct_same _ _ _ _ _ D Hs Hj) as F;
  match type of F with ?P -> _ => let G := fresh in assert (G : P) by (try match goal with d : data_item |- _ => destruct d end; distinct_names); destruct (F G) as (o' & Hs' & Ha); clear F G end.
Ltac keep S := match goal with
  | H : field _ ?o ?k ?x, Ha : alike same ?o _ |- field _ _ ?k _ => exact (field_same _ _ _ _ _ S Ha H)
  | H : field_or _ _ ?o ?k ?x, Ha : alike same ?o _ |- field_or _ _ _ ?k _ => exact (field_or_same _ _ _ _ _ _ S Ha H)
  end.
Ltac keeps S := match goal with |- _ /\ _ => split; [keep S|] | _ => keep S end.
Lemma item_stable : stable W_item.
Proof.
  intros j d (v & o & key & value & Hs & H1 & H2 & Hj) j' Hj'.
  assert (G : exists v', same v v' /\ (j' = JObj [(tx "static", v')] /\ d = DStatic key value \/ j' = JObj [(tx "expression", v')] /\ d = DExpr key value)).
  { destruct Hj as [[-> ->]|[-> ->]]; apply singleton_same in Hj' as (v' & -> & Hv); eauto. }
  destruct G as (v' & Hv & Hq). restruct Hs Hv as o' Hs' Ha. exists v', o', key, value.
  split; [exact Hs'|]. keeps text_stable. keeps text_stable. exact Hq.
Qed.
Lemma cond_stable : stable W_cond.
Proof.
  intros j c (o & Hs & H1 & H2) j' Hj'. restruct Hs Hj' as o' Hs' Ha. exists o'. split; [exact Hs'|].
  keeps (list_stable _ text_stable). keeps (list_stable _ item_stable).
Qed.
Lemma legacy_stable : stable W_legacy.
Proof.
  intros j c (o & sources & Hs & H1 & H2 & H3 & H4 & H5) j' Hj'. restruct Hs Hj' as o' Hs' Ha. exists o', sources. split; [exact Hs'|].
  do 2 keeps text_stable. keeps (list_stable _ text_stable). keeps (list_stable _ cond_stable). keeps (list_stable _ text_stable).
Qed.
Lemma common_same o o' p t g s n : alike same o o' -> W_common o p t g s n -> W_common o' p t g s n.
Proof.
  intros Ha (sources & H1 & H2 & H3 & H4 & H5 & H6). exists sources. keeps text_stable. do 2 keeps bool_stable. split; [keep (name_stable [("parallel", false); ("sequential", true)]%string)|]. keeps (list_stable _ text_stable). keeps tag_stable.
Qed.
Lemma typed_stable : stable W_typed.
Proof.
  enough (G : forall j j', same j j' -> (forall t, W_typed j t -> W_typed j' t) /\ (forall l rs, j = JArr l -> Forall2 W_typed l rs -> exists l', j' = JArr l' /\ Forall2 W_typed l' rs)) by (intros j t H j' Hs; now apply (G j j' Hs)).
  induction 1 as [j|l l' Hl H IH|o o' H1 H2 Hk H IH]; split; try (intros; discriminate).
  - auto.
  - intros l rs -> Hf. eauto.
  - intros t Ht. inversion Ht.
  - intros l1 rs [= <-] Hf. exists l'. split; [reflexivity|]. revert l' Hl H IH. induction Hf as [|v r l rs Hv Hf IHf]; intros [|v' l'] Hl H IH; try discriminate; constructor.
    + apply (IH 0 v v' eq_refl eq_refl). exact Hv.
    + apply IHf; auto; intros i w w' Hw Hw'; [now apply (H (S i))|now apply (IH (S i))].
  - intros t Ht. pose proof (obj_alike same o o' H2 Hk H) as Ha. inversion Ht; subst;
      match goal with C : W_common o _ _ _ _ _ |- _ => apply (common_same _ _ _ _ _ _ _ Ha) in C end.
    + eapply wt_call; [eassumption|keep text_stable|keep text_stable|keep text_stable|keep text_stable|]. now apply Ha.
    + match goal with Hh : has o "onReply" (JArr ?js) |- _ => rename Hh into Hr; apply has_In in Hr; assert (Hi : In (tx "onReply") (map fst o')) by (apply Hk; apply in_map_iff; now exists (tx "onReply", JArr js)) end.
      apply in_map_iff in Hi as ([k' v'] & Hq & Hi). cbn in Hq. subst k'. match goal with Hf : Forall2 W_typed _ _ |- _ => destruct (proj2 (IH _ _ _ Hr Hi) _ _ eq_refl Hf) as (js' & -> & Hf') end.
      eapply wt_call_replies; [eassumption|keep text_stable|keep text_stable|keep text_stable|keep text_stable|apply In_has; [exact H2|exact Hi]|exact Hf'].
    + eapply wt_deny; [eassumption|keep text_stable].
    + eapply wt_headers; [eassumption|keep (name_stable [("request", MReq); ("response", MResp)]%string)|keep text_stable].
    + eapply wt_store; [eassumption|keep text_stable|keep text_stable|keep bool_stable].
    + eapply wt_fail; [eassumption|keep text_stable].
Qed.
Lemma action_stable : stable W_action.
Proof.
  intros j [t|l] H j' Hs; [now apply (typed_stable j t)|]. destruct H as [Hl Hn]. split; [now apply (legacy_stable j l)|]. intros t Ht. apply (Hn t). apply (typed_stable j' t Ht). now apply same_sym.
Qed.
Lemma routes_stable : stable W_routes.
Proof.
  intros j c (o & Hs & H1 & H2) j' Hj'. restruct Hs Hj' as o' Hs' Ha. exists o'. split; [exact Hs'|]. keeps (list_stable _ text_stable). keeps (list_stable _ text_stable).
Qed.
Lemma set_stable : stable W_set.
Proof.
  intros j c (o & Hs & H1 & H2 & H3) j' Hj'. restruct Hs Hj' as o' Hs' Ha. exists o'. split; [exact Hs'|]. keeps text_stable. keeps routes_stable. keeps (list_stable _ action_stable).
Qed.
Lemma timeout_stable dur : stable (W_timeout dur).
Proof. intros j ms (s & z & -> & H) j' Hs. exists s, z. split; [now inversion Hs|exact H]. Qed.
Lemma service_stable dur : stable (W_service dur).
Proof.
  intros j c (o & Hs & H1 & H2 & H3 & H4 & H5 & H6) j' Hj'. restruct Hs Hj' as o' Hs' Ha. exists o'. split; [exact Hs'|].
  split; [keep (name_stable service_types)|]. keeps text_stable. split; [keep (name_stable [("deny", true); ("allow", false)]%string)|]. keeps (timeout_stable dur). do 2 keeps (opt_stable _ text_stable).
Qed.
Lemma tracing_stable : stable W_tracing.
Proof. intros j c (o & Hs & H1) j' Hj'. restruct Hs Hj' as o' Hs' Ha. exists o'. split; [exact Hs'|]. keeps text_stable. Qed.
Lemma observability_stable : stable W_observability.
Proof.
  intros j c (o & level & Hs & H1 & H2 & H3) j' Hj'. restruct Hs Hj' as o' Hs' Ha. exists o', level. split; [exact Hs'|]. do 2 keeps (opt_stable _ text_stable). keeps (opt_stable _ tracing_stable).
Qed.

(** a map of the document, in another order *)
Lemma put_distinct {A} (kvs : list (text * A)) : forall m, NoDup (map fst (m ++ kvs)) -> put_all kvs m = m ++ kvs.
Proof.
  induction kvs as [|[k x] kvs IH]; intros m Hd; [now rewrite app_nil_r|]. cbn [put_all fold_left fst snd]. fold (put_all kvs (tset k x m)).
  assert (Hk : ~ In k (map fst m)) by (rewrite map_app in Hd; cbn [map fst] in Hd; apply NoDup_remove_2 in Hd; rewrite in_app_iff in Hd; auto).
  assert (Hq : tset k x m = m ++ [(k, x)]).
  { clear - Hk. induction m as [|[k' y] m IH]; [reflexivity|]. cbn [aset app]. destruct (text_eqb k k') eqn:He; [apply text_eqb_eq in He; exfalso; apply Hk; now left|]. rewrite IH; [reflexivity|]. intros Hi. apply Hk. now right. }
  rewrite Hq, IH; rewrite <- app_assoc; [reflexivity|exact Hd].
Qed.
Lemma map_same {A} (d : json -> option A) W : reads d W -> stable W -> forall j m j', de_map d j = Some m -> same j j' -> exists m', de_map d j' = Some m' /\ Permutation m m'.
Proof.
  intros HR HS j m j' Hm Hs. inversion Hs as [|l l' _ _|o o' H1 H2 Hk H]; subst; [eauto|discriminate|]. unfold de_map in *.
  destruct (map_opt _ o) as [kvs|] eqn:Ho; [|discriminate]. cbn [option_map] in Hm. apply (entries_reads d W HR) in Ho as (xs & Hf & ->). pose proof (two_length Hf) as Hl.
  change (Some (put_all (combine (map fst o) xs) []) = Some m) in Hm. rewrite put_distinct in Hm by (cbn [app]; now rewrite combine_keys). injection Hm as <-. cbn [app].
  assert (Hx : forall k v x, In (k, v) o -> In (k, x) (combine (map fst o) xs) -> W v x).
  { clear - H1 Hf. induction Hf as [|[k1 v1] x1 o xs Hw Hf IH]; [easy|]. cbn [map fst combine] in *. inversion H1 as [|? ? Hn Hd]; subst. intros k v x [Hq|Hi] [Hq'|Hi']; [injection Hq as -> ->; injection Hq' as ->; exact Hw| | |eapply IH; eassumption].
    - injection Hq as -> ->. exfalso. apply Hn. eapply in_combine_l. exact Hi'.
    - injection Hq' as -> ->. exfalso. apply Hn. apply in_map_iff. now exists (k, v). }
  assert (Hall : forall k v, In (k, v) o -> exists x, In (k, x) (combine (map fst o) xs)).
  { clear - Hf. induction Hf as [|[k1 v1] x1 o xs Hw Hf IH]; [easy|]. cbn [map fst combine]. intros k v [[= -> ->]|Hi]; [eexists; now left|]. destruct (IH k v Hi) as (x & Hx). exists x. now right. }
  assert (Hf' : exists xs', Forall2 (fun kv x => W (snd kv) x) o' xs' /\ Forall2 (fun kv x => In (fst kv, x) (combine (map fst o) xs)) o' xs').
  { assert (G : forall kv, In kv o' -> exists x, W (snd kv) x /\ In (fst kv, x) (combine (map fst o) xs)).
    { intros [k v'] Hi. assert (Hin : In k (map fst o)) by (apply Hk; apply in_map_iff; now exists (k, v')). apply in_map_iff in Hin as ([k0 v] & Hq & Hin). cbn in Hq. subst k0.
      destruct (Hall k v Hin) as (x & Hxi). exists x. split; [|exact Hxi]. apply (HS v x); [now apply (Hx k)|]. now apply (H k). }
    clear - G. induction o' as [|kv o' IH]; [exists []; split; constructor|]. destruct IH as (xs' & F1 & F2); [intros kv' Hi; apply G; now right|]. destruct (G kv (or_introl eq_refl)) as (x & G1 & G2). exists (x :: xs'). split; now constructor. }
  destruct Hf' as (xs' & Hf1 & Hf2). pose proof (two_length Hf1) as Hl'.
  assert (Ho' : map_opt (fun kv : text * json => option_map (pair (fst kv)) (d (snd kv))) o' = Some (combine (map fst o') xs')) by (apply (entries_reads d W HR); eauto). rewrite Ho'. cbn [option_map].
  exists (combine (map fst o') xs'). split; [f_equal; change (put_all (combine (map fst o') xs') [] = combine (map fst o') xs'); now rewrite put_distinct by (cbn [app]; now rewrite combine_keys)|].
  apply NoDup_Permutation_bis.
  - apply NoDup_map_inv with (f := fst). now rewrite combine_keys.
  - rewrite !combine_length, !map_length, <- Hl, <- Hl', !Nat.min_id. rewrite <- (map_length fst o), <- (map_length fst o'). apply NoDup_incl_length; [exact H2|]. intros k Hi. now apply Hk.
  - intros [k x] Hi. assert (Hin : In k (map fst o')) by (apply Hk; eapply in_combine_l; exact Hi). apply in_map_iff in Hin as ([k0 v'] & Hq & Hin). cbn in Hq. subst k0.
    assert (G : exists x', In (k, x') (combine (map fst o') xs') /\ In (k, x') (combine (map fst o) xs)).
    { clear - Hin Hf2. induction Hf2 as [|[k1 v1] x1 o2 ys Hw Hf IH]; [easy|]. cbn [map fst combine] in *. destruct Hin as [[= -> ->]|Hi]; [exists x1; split; [now left|exact Hw]|]. destruct (IH Hi) as (x' & A1 & A2). exists x'. split; [now right|exact A2]. }
    destruct G as (x' & G1 & G2). assert (Hdk : NoDup (map fst (combine (map fst o) xs))) by now rewrite combine_keys.
    apply (In_tget _ Hdk) in Hi. apply (In_tget _ Hdk) in G2. assert (x' = x) as -> by congruence. exact G1.
Qed.

(** the same settings; the services and the request data are sets of named things *)
Definition same_settings (c c' : plugin_cfg) : Prop :=
  Permutation (pc_request_data c) (pc_request_data c') /\ Permutation (pc_services c) (pc_services c') /\ pc_sets c' = pc_sets c /\
  pc_identifier c' = pc_identifier c /\ pc_tracing c' = pc_tracing c /\ pc_descriptor_service c' = pc_descriptor_service c.
Theorem C106_order_of_entries_is_irrelevant dur j j' c : same j j' -> de_config dur j = Some c -> exists c', de_config dur j' = Some c' /\ same_settings c c'.
Proof.
  intros Hs H. unfold de_config in *. unbind. injection H as <-. restruct H0 Hs as o' Hs' Ha. apply fields_struct in Hs'. rewrite Hs'. cbn [bind].
  assert (M : forall A (d : json -> option A) W k y m, reads d W -> stable W -> need_or (de_map d) y k x = Some m -> exists m', need_or (de_map d) y k o' = Some m' /\ Permutation m m').
  { intros A d W k y m HR HS Hm. unfold need_or in *. destruct Ha as [Ha1 Ha2]. destruct (get (tx k) x) as [[v|]|] eqn:Hg; [| |discriminate].
    - apply get_has in Hg. destruct (Ha1 k v Hg) as (v' & Hv' & Hsv). apply get_has in Hv'. rewrite Hv'. eapply map_same; eassumption.
    - apply get_lacks in Hg. apply Ha2 in Hg. apply get_lacks in Hg. rewrite Hg. injection Hm as ->. eauto. }
  assert (M2 : forall A (d : json -> option A) W k m, reads d W -> stable W -> need (de_map d) k x = Some m -> exists m', need (de_map d) k o' = Some m' /\ Permutation m m').
  { intros A d W k m HR HS Hm. unfold need in *. destruct Ha as [Ha1 Ha2]. destruct (get (tx k) x) as [[v|]|] eqn:Hg; [|discriminate..].
    apply get_has in Hg. destruct (Ha1 k v Hg) as (v' & Hv' & Hsv). apply get_has in Hv'. rewrite Hv'. eapply map_same; eassumption. }
  assert (H1' := M _ _ _ _ _ _ text_reads text_stable H1). destruct H1' as (rd' & -> & P1). cbn [bind].
  assert (H2' := M2 _ _ _ _ _ (service_reads dur) (service_stable dur) H2). destruct H2' as (sv' & -> & P2). cbn [bind].
  apply (need_field _ _ (vec_reads _ _ set_reads)) in H3. apply (field_same _ _ _ _ _ (list_stable _ set_stable) Ha) in H3. apply (need_field _ _ (vec_reads _ _ set_reads)) in H3. rewrite H3. cbn [bind].
  apply (need_or_field _ _ observability_reads) in H4. apply (field_or_same _ _ _ _ _ _ observability_stable Ha) in H4. apply (need_or_field _ _ observability_reads) in H4. rewrite H4. cbn [bind].
  apply (need_or_field _ _ text_reads) in H5. apply (field_or_same _ _ _ _ _ _ text_stable Ha) in H5. apply (need_or_field _ _ text_reads) in H5. rewrite H5. cbn [bind].
  eexists. split; [reflexivity|]. unfold same_settings. cbn. auto 10.
Qed.
Print Assumptions C106_order_of_entries_is_irrelevant.

(** Entries with other names than these are not looked at. *)
Definition action_names : list string :=
  ["predicate"; "terminal"; "isGuard"; "execution"; "sources"; "type"; "var"; "service"; "messageBuilder"; "onReply"; "label"; "denyWith"; "target"; "headers"; "path"; "value"; "exportToHost"; "logMessage"; "scope"; "predicates"; "conditionalData"]%string.
Definition config_names : list string := ["requestData"; "services"; "actionSets"; "observability"; "descriptorService"]%string.
Lemma get_skip {A} (n : string) (a : list (text * A)) k v b : tx n <> k -> get (tx n) (a ++ (k, v) :: b) = get (tx n) (a ++ b).
Proof. intros Hn. unfold get. rewrite !filter_app. cbn [filter fst]. destruct (text_eqb (tx n) k) eqn:He; [apply text_eqb_eq in He; contradiction|reflexivity]. Qed.
Ltac skips Hk := unfold need, need_or; rewrite ?(get_skip (A := json)) by (intros <-; apply Hk; apply in_map; cbn; auto 30); rewrite ?(get_skip (A := option (list taction))) by (intros <-; apply Hk; apply in_map; cbn; auto 30).
Theorem C106_other_entries_of_an_action_are_ignored a k v b : ~ In k (map tx action_names) -> de_action (JObj (a ++ (k, v) :: b)) = de_action (JObj (a ++ b)).
Proof.
  intros Hk. unfold de_action, de_legacy, fields. rewrite !de_typed_obj. unfold de_taction_with, de_oper, reps. rewrite !map_app. cbn [map fst snd bind]. skips Hk. reflexivity.
Qed.
Theorem C106_other_entries_of_the_configuration_are_ignored dur a k v b : ~ In k (map tx config_names) -> de_config dur (JObj (a ++ (k, v) :: b)) = de_config dur (JObj (a ++ b)).
Proof. intros Hk. unfold de_config, fields. cbn [bind]. skips Hk. reflexivity. Qed.
Print Assumptions C106_other_entries_of_an_action_are_ignored.
Print Assumptions C106_other_entries_of_the_configuration_are_ignored.

(** * C107 *)
(** What cannot be read is rejected: an action of an accepted document has everything it needs. *)
Theorem C107_mandatory_entries_partial dur j c : de_config dur j = Some c ->
  exists o, struct 3 ["requestData"; "services"; "actionSets"; "observability"; "descriptorService"]%string j o /\
  exists sets, has o "actionSets" (JArr sets) /\ length (pc_sets c) = length sets /\
  forall i js s, nth_error sets i = Some js -> nth_error (pc_sets c) i = Some s ->
    exists os acts, struct 3 ["name"; "routeRuleConditions"; "actions"]%string js os /\ has os "actions" (JArr acts) /\ length (as_actions s) = length acts /\
    forall n ja a, nth_error acts n = Some ja -> nth_error (as_actions s) n = Some a ->
      match a with
      | CTyped (mkT p t _ _ _) => exists oa n, ja = JObj oa /\ has oa "predicate" (JStr p) /\ has oa "terminal" (JBool t) /\ field W_tag oa "type" n
      | CLegacy l => exists oa, struct 2 ["service"; "scope"; "predicates"; "conditionalData"; "sources"]%string ja oa /\ has oa "service" (JStr (la_service l)) /\ has oa "scope" (JStr (la_scope l))
      end.
Proof.
  assert (N2 : forall A B (P : A -> B -> Prop) l m, Forall2 P l m -> forall i x y, nth_error l i = Some x -> nth_error m i = Some y -> P x y).
  { induction 1 as [|x y l m Hp _ IH]; intros [|i]; cbn; try discriminate; [congruence|apply IH]. }
  intros H. apply C105_configuration_means_what_is_written in H as (o & Hs & _ & _ & (v & Hv & sets & -> & Hf) & _). exists o. split; [exact Hs|]. exists sets. split; [exact Hv|]. split; [symmetry; exact (two_length Hf)|].
  intros i js s Hj Hi. destruct (N2 _ _ _ _ _ Hf i js s Hj Hi) as (os & Hos & _ & _ & (v' & Hv' & acts & -> & Hf')). exists os, acts. split; [exact Hos|]. split; [exact Hv'|]. split; [symmetry; exact (two_length Hf')|].
  intros n ja a Hn Ha. pose proof (N2 _ _ _ _ _ Hf' n ja a Hn Ha) as Hw. destruct a as [[p t g s0 op]|l].
  - inversion Hw; subst; match goal with C : W_common _ _ _ _ _ _ |- _ => destruct C as (src & (? & Hp & ->) & (? & Ht & ->) & _ & _ & _ & Hty) end; eauto 10.
  - destruct Hw as [(oa & src & Hst & (? & H1 & ->) & (? & H2 & ->) & _) _]. eauto.
Qed.
Print Assumptions C107_mandatory_entries_partial.

Theorem C107_unknown_options_are_rejected_refuted : exists o k v p s op, In (tx k, v) o /\ k = "isguard"%string /\ v = JBool false /\
  de_action (JObj o) = Some (CTyped (mkT p true true s op)).
Proof.
  exists [(tx "type", JStr (tx "deny")); (tx "predicate", JStr (tx "true")); (tx "terminal", JBool true); (tx "isguard", JBool false); (tx "denyWith", JStr (tx "{}"))], "isguard"%string, (JBool false).
  do 3 eexists. split; [cbn; tauto|]. split; [reflexivity|]. split; [reflexivity|]. vm_compute. reflexivity.
Qed.
(** a typed action without its predicate is not rejected if it has a scope too, but becomes a legacy action *)
Theorem C107_incomplete_typed_action_is_rejected_refuted : exists o l, has o "type" (JStr (tx "grpc")) /\ has o "messageBuilder" (JStr (tx "m")) /\ lacks o "predicate" /\
  de_action (JObj o) = Some (CLegacy l).
Proof.
  exists [(tx "type", JStr (tx "grpc")); (tx "var", JStr (tx "v")); (tx "service", JStr (tx "s")); (tx "scope", JStr (tx "x")); (tx "messageBuilder", JStr (tx "m")); (tx "terminal", JBool true)].
  eexists. split; [apply get_has; vm_compute; reflexivity|]. split; [apply get_has; vm_compute; reflexivity|]. split; [apply get_lacks; vm_compute; reflexivity|]. vm_compute. reflexivity.
Qed.
Print Assumptions C107_unknown_options_are_rejected_refuted.
Print Assumptions C107_incomplete_typed_action_is_rejected_refuted.

(** * C108 *)
(** The time limit of a service: the written one in whole milliseconds, rounded down; 20 ms if none is written. *)
Theorem C108_time_limits_are_as_written dur o s : de_service dur (JObj o) = Some s ->
  lacks o "timeout" /\ sc_timeout s = 20%N \/
  exists d ns, has o "timeout" (JStr d) /\ dur d = Some ns /\ (0 <= ns)%Z /\ (Z.of_N (sc_timeout s) * 1000000 <= ns < (Z.of_N (sc_timeout s) + 1) * 1000000)%Z.
Proof.
  intros H. apply service_reads in H as (o' & Hs & _ & _ & _ & Ht & _). destruct Hs as [[= <-]|(l & Hq & _)]; [|discriminate]. destruct Ht as [(v & Hv & d & ns & -> & Hd & Hb)|[Hl Ht]]; [|auto].
  right. exists d, ns. split; [exact Hv|]. split; [exact Hd|]. split; [lia|exact Hb].
Qed.
Theorem C108_negative_time_limits_are_rejected dur o d ns : has o "timeout" (JStr d) -> dur d = Some ns -> (ns < 0)%Z -> de_service dur (JObj o) = None.
Proof.
  intros Hh Hd Hn. destruct (de_service dur (JObj o)) as [s|] eqn:Hs; [|reflexivity]. exfalso. apply C108_time_limits_are_as_written in Hs as [[Hl _]|(d' & ns' & Hh' & Hd' & Hp & _)].
  - apply Hl. apply in_map_iff. exists (tx "timeout", JStr d). split; [reflexivity|]. now apply has_In.
  - apply get_has in Hh. apply get_has in Hh'. assert (d' = d) as -> by congruence. assert (ns' = ns) as -> by congruence. lia.
Qed.
(** so a limit below a millisecond is none at all *)
Theorem C108_positive_time_limits_stay_positive_refuted : exists dur o d ns s, has o "timeout" (JStr d) /\ dur d = Some ns /\ (0 < ns)%Z /\
  de_service dur (JObj o) = Some s /\ sc_timeout s = 0%N.
Proof.
  exists (fun _ => Some 900000%Z), [(tx "type", JStr (tx "auth")); (tx "endpoint", JStr (tx "c")); (tx "failureMode", JStr (tx "deny")); (tx "timeout", JStr (tx "900us"))], (tx "900us"), 900000%Z.
  eexists. split; [apply get_has; vm_compute; reflexivity|]. split; [reflexivity|]. split; [reflexivity|]. split; [vm_compute; reflexivity|reflexivity].
Qed.
Print Assumptions C108_time_limits_are_as_written.
Print Assumptions C108_negative_time_limits_are_rejected.
Print Assumptions C108_positive_time_limits_stay_positive_refuted.

(** * Examples *)
Definition js (s : string) : json := JStr (tx s).
Definition jo (l : list (string * json)) : json := JObj (map (fun kv => (tx (fst kv), snd kv)) l).
(** the document of the tests of configuration.rs, abridged, with a typed action *)
Definition doc_services : string * json := ("services", jo [("authorino", jo [("type", js "auth"); ("endpoint", js "authorino-cluster"); ("failureMode", js "deny"); ("timeout", js "24ms")]);
                                                            ("limitador", jo [("type", js "ratelimit"); ("endpoint", js "limitador-cluster"); ("failureMode", js "allow")])])%string.
Definition doc_actions : json := JArr [
  jo [("service", js "authorino"); ("scope", js "authconfig-A")];
  jo [("service", js "limitador"); ("scope", js "rlp-A"); ("conditionalData", JArr [jo [("predicates", JArr [js "p"]); ("data", JArr [jo [("static", jo [("key", js "k"); ("value", js "1")])]; jo [("expression", jo [("key", js "user"); ("value", js "auth.name")])]])]])];
  jo [("type", js "grpc"); ("predicate", js "true"); ("terminal", JBool false); ("execution", js "sequential"); ("var", js "v"); ("service", js "limitador"); ("messageBuilder", js "m");
      ("onReply", JArr [jo [("type", js "deny"); ("predicate", js "v.no"); ("terminal", JBool true); ("denyWith", js "{}")]])]]%string.
Definition doc : json := jo [doc_services; ("actionSets", JArr [jo [("name", js "A"); ("routeRuleConditions", jo [("hostnames", JArr [js "*.toystore.com"])]); ("actions", doc_actions)]])]%string.
Definition doc' : json := jo [("actionSets", JArr [jo [("actions", doc_actions); ("routeRuleConditions", jo [("hostnames", JArr [js "*.toystore.com"])]); ("name", js "A")]]); doc_services]%string.
Definition doc_dur (s : text) : option Z := if text_eqb s (tx "24ms") then Some 24000000%Z else None.
Definition doc_cfg : plugin_cfg :=
  mkPlugin [] [(tx "authorino", mkSvcCfg SAuth (tx "authorino-cluster") true 24 None None); (tx "limitador", mkSvcCfg SRateLimit (tx "limitador-cluster") false 20 None None)]
    [mkSet (tx "A") [tx "*.toystore.com"] []
      [CLegacy (mkLaction (tx "authorino") (tx "authconfig-A") [] []);
       CLegacy (mkLaction (tx "limitador") (tx "rlp-A") [] [mkCd [tx "p"] [DStatic (tx "k") (tx "1"); DExpr (tx "user") (tx "auth.name")]]);
       CTyped (mkT (tx "true") false true true (OpGrpc (tx "v") (tx "limitador") (tx "m") [mkT (tx "v.no") true true false (OpDeny (tx "{}"))]))]]
    None None (tx "kuadrant-operator-grpc").
Example C105_ex : W_config doc_dur doc doc_cfg.
Proof. apply C105_configuration_means_what_is_written. vm_compute. reflexivity. Qed.
Example C106_ex : same doc doc' /\ de_config doc_dur doc' = Some doc_cfg.
Proof.
  split; [|vm_compute; reflexivity]. unfold doc, doc', jo. cbn [map fst snd]. apply s_obj; cbn [map fst].
  - repeat (constructor; [cbn; intuition discriminate|]). constructor.
  - repeat (constructor; [cbn; intuition discriminate|]). constructor.
  - intros k. cbn. tauto.
  - intros k v v' [[= <- <-]|[[= <- <-]|[]]] [Hq|[Hq|[]]]; try discriminate Hq; injection Hq as <-; [constructor|]. apply s_arr; [reflexivity|]. intros [|[|i]] w w' [= <-] [= <-].
    apply s_obj; cbn [map fst].
    + repeat (constructor; [cbn; intuition discriminate|]). constructor.
    + repeat (constructor; [cbn; intuition discriminate|]). constructor.
    + intros k. cbn. tauto.
    + intros k v v' [[= <- <-]|[[= <- <-]|[[= <- <-]|[]]]] [Hq|[Hq|[Hq|[]]]]; try discriminate Hq; injection Hq as <-; constructor.
Qed.
Example C107_ex : length (pc_sets doc_cfg) = 1 /\ de_config doc_dur (jo [doc_services; ("actionSets", JArr [jo [("name", js "A"); ("routeRuleConditions", jo [("hostnames", JArr [])]); ("actions", JArr [jo [("service", js "authorino")]])]])]%string) = None.
Proof. split; [reflexivity|vm_compute; reflexivity]. Qed.
Example C108_ex : exists s, de_service doc_dur (jo [("type", js "auth"); ("endpoint", js "c"); ("failureMode", js "deny"); ("timeout", js "24ms")]%string) = Some s /\ sc_timeout s = 24%N.
Proof. eexists. split; [vm_compute; reflexivity|reflexivity]. Qed.
