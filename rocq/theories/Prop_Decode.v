(** C100, C101. *)
From Coq Require Import String List NArith ZArith Bool Ascii Lia.
From Verif Require Import Base Value Headers AttrPath Ctx CelProps CelEval P_Frame P_Utf8 Config Legacy Blueprint Exec Factory Demo Prop_Paths.
Import ListNotations.
Open Scope list_scope.

(** ** C100 *)
(** *** Specification *)
(** the value of a JSON document: numbers keep their value, those that are not negative are
    unsigned; arrays and objects element by element *)
Inductive of_json : json -> value -> Prop :=
| oj_null : of_json JNull VNull
| oj_bool b : of_json (JBool b) (VBool b)
| oj_nat n : of_json (JNum (JPos n)) (VUInt n)
| oj_neg z : of_json (JNum (JNeg z)) (VInt z)
| oj_float x : of_json (JNum (JFloat x)) (VFloat x)
| oj_str s : of_json (JStr s) (VString s)
| oj_arr l vs : Forall2 of_json l vs -> of_json (JArr l) (VList vs)
| oj_obj l vs : Forall2 (fun kj kv => fst kv = KStr (fst kj) /\ of_json (snd kj) (snd kv)) l vs -> of_json (JObj l) (VMap vs).
Definition unicode (s : text) : Prop := exists cs, Forall (fun c => is_scalar c = true) cs /\ s = utf8_encode cs.
(** 8 bytes, little endian, two's complement *)
Definition int_bytes (z : Z) (b : text) : Prop := (- 2 ^ 63 <= z < 2 ^ 63)%Z /\ b = le_bytes 8 (Z.to_N (z mod 2 ^ 64)).
Definition uint_bytes (n : N) (b : text) : Prop := (n < 2 ^ 64)%N /\ b = le_bytes 8 n.
(** the bytes [b] of an attribute of type [t] stand for the value [v] *)
Inductive stands_for (E : env) : option ctype -> text -> value -> Prop :=
| sf_string b : unicode b -> stands_for E (Some TString) b (VString b)
| sf_int b z : int_bytes z b -> stands_for E (Some TInt) b (VInt z)
| sf_uint b n : uint_bytes n b -> stands_for E (Some TUInt) b (VUInt n)
| sf_float b n : uint_bytes n b -> stands_for E (Some TFloat) b (VFloat n)
| sf_time b z : int_bytes z b -> stands_for E (Some TTimestamp) b (VTimestamp z)
| sf_bool n : (n < 256)%N -> stands_for E (Some TBool) [ascii_of_N n] (VBool (N.odd n))
| sf_bytes b : stands_for E (Some TBytes) b (VBytes b)
| sf_json b j v : unicode b -> o_json E b = Some j -> of_json j v -> stands_for E None b v
| sf_text b : unicode b -> o_json E b = None -> stands_for E None b (VString b).
(** the names of the headers with, for each, its values in order, separated by commas *)
Fixpoint commas (l : list text) : text :=
  match l with [] => [] | [v] => v | v :: l' => v ++ ","%char :: commas l' end.
Definition values_of (k : text) (h : headers) : list text := map snd (filter (fun kv => text_eqb (fst kv) k) h).
Definition header_map (h : headers) (m : list (text * text)) : Prop :=
  NoDup (map fst m) /\ forall k v, In (k, v) m <-> values_of k h <> [] /\ v = commas (values_of k h).
(** what the host said about an attribute of type [t] is the value [v] *)
Inductive reads_as (E : env) : option ctype -> cached -> value -> Prop :=
| ra_absent t : reads_as E t (CBytes None) VNull
| ra_bytes t b v : stands_for E t b v -> reads_as E t (CBytes (Some b)) v
| ra_headers h m : header_map h m -> reads_as E (Some TMap) (CHeaders h) (VMap (map (fun kv => (KStr (fst kv), VString (snd kv))) m)).

(** *** JSON *)
Lemma json_ind' (P : json -> Prop) : P JNull -> (forall b, P (JBool b)) -> (forall n, P (JNum n)) -> (forall s, P (JStr s)) ->
  (forall l, Forall P l -> P (JArr l)) -> (forall l, Forall (fun kj => P (snd kj)) l -> P (JObj l)) -> forall j, P j.
Proof.
  intros H1 H2 H3 H4 H5 H6. fix IH 1. intros [|b|n|s|l|l]; [exact H1|apply H2|apply H3|apply H4| |].
  - apply H5. induction l as [|x l IHl]; constructor; [apply IH|exact IHl].
  - apply H6. induction l as [|[k x] l IHl]; constructor; [apply IH|exact IHl].
Qed.
Lemma json_cel_ok j : of_json j (json_cel j).
Proof.
  induction j as [|b|n|s|l IH|l IH] using json_ind'; cbn [json_cel]; try constructor.
  - destruct n; constructor.
  - induction IH; cbn; constructor; auto.
  - induction IH as [|[k x] l Hx _ IHl]; cbn; constructor; auto.
Qed.
Lemma json_cel_only j : forall v, of_json j v -> v = json_cel j.
Proof.
  induction j as [|b|n|s|l IH|l IH] using json_ind'; intros v H; inversion H as [| | | | | |l' vs Hf Hl|l' vs Hf Hl]; subst; try reflexivity; cbn [json_cel].
  - f_equal. clear H. induction Hf as [|j w l vs Hj Hf IHf]; [reflexivity|]. inversion IH as [|? ? A1 A2]; subst. cbn. f_equal; auto.
  - f_equal. clear H. induction Hf as [|[k j] [k' w] l vs [Hk Hj] Hf IHf]; [reflexivity|]. inversion IH as [|? ? A1 A2]; subst. cbn in *. subst k'. f_equal; auto. now rewrite (A1 _ Hj).
Qed.
Lemma parse_string_iff b s : parse_string b = Some s <-> unicode b /\ s = b.
Proof.
  unfold parse_string, utf8_valid. split.
  - destruct (utf8_decode b) as [cs|] eqn:H; [|discriminate]. intros [= <-]. apply decode_inv in H as [H1 H2]. split; [exists cs; now split|reflexivity].
  - intros [(cs & H1 & ->) ->]. now rewrite decode_encode.
Qed.

(** *** Header maps *)
Lemma values_app k a b : values_of k (a ++ b) = values_of k a ++ values_of k b.
Proof. unfold values_of. now rewrite filter_app, map_app. Qed.
Lemma values_one k k' v : values_of k [(k', v)] = if text_eqb k' k then [v] else [].
Proof. unfold values_of. cbn. now destruct (text_eqb k' k). Qed.
Lemma commas_snoc l v : l <> [] -> commas (l ++ [v]) = commas l ++ ","%char :: v.
Proof.
  induction l as [|x l IH]; [easy|]. intros _. destruct l as [|y l]; [reflexivity|].
  change (commas ((x :: y :: l) ++ [v])) with (x ++ ","%char :: commas ((y :: l) ++ [v])). rewrite IH by discriminate.
  change (commas (x :: y :: l)) with (x ++ ","%char :: commas (y :: l)). now rewrite <- app_assoc.
Qed.
Lemma to_map_ok h : NoDup (map fst (h_to_map h)) /\ forall k, tget k (h_to_map h) = match values_of k h with [] => None | _ => Some (commas (values_of k h)) end.
Proof.
  unfold h_to_map. induction h as [|[k' v] h IH] using rev_ind; [split; [constructor|reflexivity]|].
  rewrite fold_left_app. cbn [fold_left]. set (m := fold_left h_map_add h []) in *. destruct IH as [IH1 IH2].
  unfold h_map_add. cbn [fst snd]. rewrite IH2. split.
  - destruct (values_of k' h); now apply (NoDup_aset text_eqb text_eqb_eq).
  - intros k. rewrite values_app, values_one. destruct (text_eqb k' k) eqn:He.
    + apply text_eqb_eq in He. subst k'. destruct (values_of k h) as [|x l]; cbn [app].
      * now rewrite (aget_aset_same text_eqb text_eqb_eq).
      * rewrite (aget_aset_same text_eqb text_eqb_eq). change (x :: l ++ [v]) with ((x :: l) ++ [v]). now rewrite commas_snoc.
    + rewrite app_nil_r. assert (k <> k') by (intros ->; rewrite text_eqb_refl in He; discriminate).
      destruct (values_of k' h); rewrite (aget_aset_other text_eqb text_eqb_eq) by assumption; apply IH2.
Qed.
Lemma get_In_iff (m : list (text * text)) k v : NoDup (map fst m) -> (In (k, v) m <-> tget k m = Some v).
Proof.
  intros Hn. induction m as [|[k' v'] m IH]; [split; [intros []|discriminate]|]. inversion Hn as [|? ? N1 N2]; subst. cbn. destruct (text_eqb k k') eqn:He.
  - apply text_eqb_eq in He. subst k'. split; [intros [[= <-]|H]; [reflexivity|]|intros [= <-]; now left]. exfalso. apply N1. now apply (in_map fst) in H.
  - rewrite <- IH by exact N2. split; [intros [[= <- <-]|H]; [rewrite text_eqb_refl in He; discriminate|exact H]|auto].
Qed.
(** an expression sees every header once, with all its values in order, separated by commas *)
Theorem C101_repeated_headers_joined : forall h, header_map h (h_to_map h).
Proof.
  intros h. destruct (to_map_ok h) as [H1 H2]. split; [exact H1|]. intros k v. rewrite (get_In_iff _ _ _ H1), H2.
  destruct (values_of k h) as [|x l]; split; [discriminate|intros [[] _]; reflexivity|intros [= <-]; now split|intros [_ ->]; reflexivity].
Qed.
Print Assumptions C101_repeated_headers_joined.
(** of the specification: it leaves only the order of the entries open *)
Theorem C101_map_determined : forall h m m', header_map h m -> header_map h m' -> forall kv, In kv m <-> In kv m'.
Proof. intros h m m' [_ H1] [_ H2] [k v]. now rewrite H1, H2. Qed.
Print Assumptions C101_map_determined.
Example C101_case : h_to_map [(tx "a", tx "1"); (tx "b", tx "2"); (tx "a", tx "3")] = [(tx "a", tx "1,3"); (tx "b", tx "2")].
Proof. reflexivity. Qed.

(** *** Attributes *)
Lemma decode_reads E t cv v : decode E t cv = Some v -> reads_as E t cv v.
Proof.
  assert (K : forall A (parse : text -> option A) f, t <> Some TMap -> (forall b a, parse b = Some a -> stands_for E t b (f a)) ->
     decode_with parse f cv = Some v -> reads_as E t cv v).
  { intros A parse f Ht Hp. unfold decode_with. destruct cv as [[b|]|h]; [|intros [= <-]; constructor|discriminate].
    destruct (parse b) as [a|] eqn:Hb; [|discriminate]. intros [= <-]. constructor. now apply Hp. }
  unfold decode. destruct t as [[]|].
  - apply K; [discriminate|]. intros b a H. apply parse_string_iff in H as [H ->]. now constructor.
  - apply K; [discriminate|]. intros b a H. apply C73_i64_decoded_exactly in H. now constructor.
  - apply K; [discriminate|]. intros b a H. apply C73_u64_decoded_exactly in H. now constructor.
  - apply K; [discriminate|]. intros b a H. apply C73_u64_decoded_exactly in H. now constructor.
  - apply K; [discriminate|]. intros b a H. apply C73_bool_decoded in H as (n & Hn & -> & ->). now constructor.
  - apply K; [discriminate|]. intros b a [= <-]. constructor.
  - apply K; [discriminate|]. intros b a H. apply C73_i64_decoded_exactly in H. now constructor.
  - destruct cv as [b|h]; [discriminate|]. intros [= <-]. constructor. apply C101_repeated_headers_joined.
  - apply K; [discriminate|]. intros b a H. apply parse_string_iff in H as [H ->]. unfold json_to_cel.
    destruct (o_json E b) as [j|] eqn:Hj; [eapply sf_json; eauto; apply json_cel_ok|now apply sf_text].
Qed.
Lemma reads_decode E t cv v : reads_as E t cv v -> t <> Some TMap -> decode E t cv = Some v.
Proof.
  intros H Ht. destruct H as [t|t b v H|h m _]; [| |congruence].
  - destruct t as [[]|]; try reflexivity. congruence.
  - destruct H as [b H|b z H|b n H|b n H|b z H|n H|b|b j v H Hj Hv|b H Hj]; cbn [decode decode_with].
    + now rewrite (proj2 (parse_string_iff b b) (conj H eq_refl)).
    + now rewrite (proj2 (C73_i64_decoded_exactly b z) H).
    + now rewrite (proj2 (C73_u64_decoded_exactly b n) H).
    + unfold parse_f64. now rewrite (proj2 (C73_u64_decoded_exactly b n) H).
    + unfold parse_timestamp. now rewrite (proj2 (C73_i64_decoded_exactly b z) H).
    + rewrite (proj2 (C73_bool_decoded [ascii_of_N n] (N.odd n))); [reflexivity|eauto].
    + reflexivity.
    + rewrite (proj2 (parse_string_iff b b) (conj H eq_refl)). cbn. unfold json_to_cel. rewrite Hj. now rewrite (json_cel_only _ _ Hv).
    + rewrite (proj2 (parse_string_iff b b) (conj H eq_refl)). cbn. unfold json_to_cel. now rewrite Hj.
Qed.

(** What an expression sees of an attribute is what the host said, read with the type of the
    attribute; an attribute that cannot be read so is an error and never another value. *)
Theorem C100_value_of_an_attribute_partial : forall E a c cv,
  fst (read_attr E (at_path a) c) = RAvail cv ->
  match fst (attr_get E a c) with
  | RAvail v => reads_as E (at_type a) cv v
  | RErr => at_type a = Some TMap /\ (exists b, cv = CBytes b) \/ forall v, ~ reads_as E (at_type a) cv v
  | RPending => False
  end.
Proof.
  intros E a c cv H. unfold attr_get. destruct (read_attr E (at_path a) c) as [[|w|] c1]; try discriminate. injection H as ->. cbn [fst].
  destruct (decode E (at_type a) cv) as [v|] eqn:Hd; [now apply decode_reads|].
  assert (D : at_type a = Some TMap \/ at_type a <> Some TMap) by (destruct (at_type a) as [[]|]; auto; right; discriminate). destruct D as [D|D].
  - left. rewrite D in Hd. split; [exact D|]. destruct cv as [b|h]; [eauto|discriminate].
  - right. intros v Hv. apply reads_decode in Hv; [congruence|exact D].
Qed.
Print Assumptions C100_value_of_an_attribute_partial.
(** of the specification: but for the order of the headers, there is one value *)
Theorem C100_value_determined : forall E t cv v w, t <> Some TMap -> reads_as E t cv v -> reads_as E t cv w -> v = w.
Proof. intros E t cv v w Ht H1 H2. apply reads_decode in H1, H2; auto. congruence. Qed.
Print Assumptions C100_value_determined.
Definition E_meta : env := mkEnv (fun _ _ => HOk (Some (tx "[-5,5]"))) (h_map E0) (h_reqheader E0) (h_setprop E0) (h_setmap E0) (h_reqbody E0) (h_respbody E0) (h_dispatch E0) (h_grpcresp E0) (h_reply E0) (o_parse E0) (o_cel E0)
  (fun _ => Some (JArr [JNum (JNeg (-5)); JNum (JPos 5)])) (o_pointer E0) (o_jshow E0) (o_f64 E0) (o_jnew E0) (o_jfeed E0) (o_jraw E0) (o_jfinish E0) (o_encode E0) (o_decode E0) (o_uuid E0) (o_trace E0) (o_span_on E0) (o_spans E0) (o_alpha E0).
Example C100_case : fst (attr_get E_meta (attr_for [tx "metadata"; tx "x"]) (ctx0 [])) = RAvail (VList [VInt (-5); VUInt 5]).
Proof. reflexivity. Qed.

(** Attributes documented as maps, other than the request headers, cannot be seen at all,
    whatever the host says about them: their bytes are not understood.  Nor can the response
    headers, for the opposite reason. *)
Theorem C100_maps_refuted : exists p, at_type (attr_for p) = Some TMap /\
  forall E l v, fst (attr_get E (attr_for p) (ctx0 l)) <> RAvail v.
Proof.
  exists [tx "source"; tx "labels"]. split; [reflexivity|]. intros E l v. unfold attr_get, read_attr.
  change (cache_get _ (ctx0 l)) with (@None cached). cbv iota. change (at_type (attr_for [tx "source"; tx "labels"])) with (Some TMap).
  change (fetch E (c_log (ctx0 l)) (at_path (attr_for [tx "source"; tx "labels"]))) with
    (match h_prop E l [tx "source"; tx "labels"] with HOk b => HOk (CBytes b) | HNotAvail => HNotAvail | HErr => HErr end).
  destruct (h_prop E l [tx "source"; tx "labels"]); discriminate.
Qed.
Print Assumptions C100_maps_refuted.
Theorem C100_response_headers_refuted : forall E l v, fst (attr_get E (attr_for p_resp_headers) (ctx0 l)) <> RAvail v.
Proof.
  intros E l v. unfold attr_get, read_attr.
  change (cache_get _ (ctx0 l)) with (@None cached). cbv iota. change (at_type (attr_for p_resp_headers)) with (@None ctype).
  change (fetch E (c_log (ctx0 l)) (at_path (attr_for p_resp_headers))) with
    (match h_map E l MResp with HOk h => HOk (CHeaders h) | HNotAvail => HNotAvail | HErr => HErr end).
  destruct (h_map E l MResp); discriminate.
Qed.
Print Assumptions C100_response_headers_refuted.

(** The documented attributes and their types, but for those that are maps (above) and the remote address, which is made from another one. *)
Definition documented : list (ctype * list (string * list string)) :=
  [ (TString, [("request", ["id"; "protocol"; "scheme"; "host"; "method"; "path"; "url_path"; "query"; "referer"; "useragent"; "body"]);
               ("source", ["address"; "service"; "principal"; "certificate"]); ("destination", ["address"; "service"; "principal"; "certificate"]);
               ("connection", ["requested_server_name"; "tls_version"; "subject_local_certificate"; "subject_peer_certificate"; "dns_san_local_certificate";
                               "dns_san_peer_certificate"; "uri_san_local_certificate"; "uri_san_peer_certificate"; "sha256_peer_certificate_digest"]);
               ("ratelimit", ["domain"])]);
    (TInt, [("request", ["size"]); ("source", ["port"]); ("destination", ["port"]); ("ratelimit", ["hits_addend"])]);
    (TUInt, [("connection", ["id"])]); (TTimestamp, [("request", ["time"])]); (TBool, [("connection", ["mtls"])]); (TBytes, [("request", ["raw_body"])]) ]%string.
Definition documented_as (p : path) (t : ctype) : Prop :=
  exists l r ns n, In (t, l) documented /\ In (r, ns) l /\ In n ns /\ p = [tx r; tx n].
Definition plain_ok (t : ctype) (p : path) : bool :=
  match at_type (attr_for p), t with
  | Some TString, TString | Some TInt, TInt | Some TUInt, TUInt | Some TTimestamp, TTimestamp | Some TBool, TBool | Some TBytes, TBytes => true
  | _, _ => false
  end && negb (path_eqb p p_req_headers || path_eqb p p_resp_headers || path_eqb p [tx "source"; tx "remote_address"] || text_eqb (hd [] p) (tx "auth")).
Lemma documented_ok p t : documented_as p t -> plain_ok t p = true.
Proof.
  intros (l & r & ns & n & H1 & H2 & H3 & ->).
  assert (H : forallb (fun tl => forallb (fun rn => forallb (fun n => plain_ok (fst tl) [tx (fst rn); tx n]) (snd rn)) (snd tl)) documented = true) by (vm_compute; reflexivity).
  rewrite forallb_forall in H. specialize (H _ H1). cbn [fst snd] in H. rewrite forallb_forall in H. specialize (H _ H2). cbn [fst snd] in H. rewrite forallb_forall in H. exact (H _ H3).
Qed.
Lemma plain_type t p : plain_ok t p = true -> at_type (attr_for p) = Some t /\ t <> TMap /\ forall E l, fetch E l p = match h_prop E l p with HOk b => HOk (CBytes b) | HNotAvail => HNotAvail | HErr => HErr end.
Proof.
  unfold plain_ok. intros H. apply andb_true_iff in H as [H1 H2]. split; [|split].
  - destruct (at_type (attr_for p)) as [[]|], t; try discriminate H1; reflexivity.
  - intros ->. destruct (at_type (attr_for p)) as [[]|]; discriminate H1.
  - intros E l. apply negb_true_iff in H2. apply orb_false_iff in H2 as [H2 H3]. apply orb_false_iff in H2 as [H2 H4]. apply orb_false_iff in H2 as [H2 H5].
    unfold fetch. rewrite H2, H5, H4. destruct p as [|r q]; [reflexivity|]. cbn [hd] in H3. rewrite H3. reflexivity.
Qed.
(** An expression sees a documented attribute with its documented type. *)
Theorem C100_documented_attributes : forall E l p t b v, documented_as p t -> h_prop E l p = HOk (Some b) ->
  fst (attr_get E (attr_for p) (ctx0 l)) = RAvail v <-> stands_for E (Some t) b v.
Proof.
  intros E l p t b v Hd Hp. apply documented_ok, plain_type in Hd as (Ht & Hm & Hf). unfold attr_get, read_attr.
  change (at_path (attr_for p)) with p. change (cache_get _ (ctx0 l)) with (@None cached). cbv iota. change (c_log (ctx0 l)) with l. rewrite Hf, Hp, Ht. cbn [fst].
  destruct (decode E (Some t) (CBytes (Some b))) as [w|] eqn:Hw; cbn [fst].
  - apply decode_reads in Hw. split; [intros [= <-]; now inversion Hw|]. intros H. f_equal.
    apply (C100_value_determined E (Some t) (CBytes (Some b))); [congruence|exact Hw|now constructor].
  - split; [discriminate|]. intros H. apply (ra_bytes E) in H. apply reads_decode in H; congruence.
Qed.
Print Assumptions C100_documented_attributes.
Example C100_documented_case : documented_as [tx "request"; tx "size"] TInt /\ documented_as [tx "connection"; tx "mtls"] TBool /\
  stands_for E0 (Some TInt) (le_bytes 8 65) (VInt 65).
Proof.
  split; [eexists _, "request"%string, _, "size"%string; split; [right; left; reflexivity|split; [left; reflexivity|split; [left; reflexivity|reflexivity]]]|].
  split; [eexists _, "connection"%string, _, "mtls"%string; split; [do 4 right; left; reflexivity|split; [left; reflexivity|split; [left; reflexivity|reflexivity]]]|].
  constructor. split; [lia|reflexivity].
Qed.
