(** Which attributes are collected for an expression. *)
From Coq Require Import String List NArith ZArith Bool Lia Arith Sorted.
From Verif Require Import Base Value Headers AttrPath Ctx CelProps CelEval P_Frame P_Eval Prop_Paths.
Import ListNotations.
Open Scope list_scope.

(** * Induction on expressions *)
Section AstInd.
  Variable P : ast -> Prop.
  Hypothesis HL : forall v, P (ALit v).
  Hypothesis HI : forall n, P (AIdent n).
  Hypothesis HS : forall e f b, P e -> P (ASelect e f b).
  Hypothesis HC : forall t f args, (forall x, t = Some x -> P x) -> Forall P args -> P (ACall t f args).
  Hypothesis HLi : forall l, Forall P l -> P (AList l).
  Hypothesis HM : forall l, Forall (fun kv => P (fst kv) /\ P (snd kv)) l -> P (AMap l).
  Hypothesis HSt : forall n l, Forall (fun kv => P (snd kv)) l -> P (AStruct n l).
  Hypothesis HCo : forall a b c d e x y, P a -> P b -> P c -> P d -> P e -> P (AComp a b c d e x y).
  Hypothesis HU : P AUnspec.
  Fixpoint ast_ind' (e : ast) : P e :=
    match e with
    | ALit v => HL v
    | AIdent n => HI n
    | ASelect e f b => HS e f b (ast_ind' e)
    | ACall t f args => HC t f args
        (match t with Some x => fun y H => match H in _ = o return match o with Some z => P z | None => True end with eq_refl => ast_ind' x end | None => fun y H => False_ind _ ltac:(discriminate) end)
        ((fix go l : Forall P l := match l with [] => Forall_nil _ | x :: l' => Forall_cons x (ast_ind' x) (go l') end) args)
    | AList l => HLi l ((fix go l : Forall P l := match l with [] => Forall_nil _ | x :: l' => Forall_cons x (ast_ind' x) (go l') end) l)
    | AMap l => HM l ((fix go l : Forall (fun kv => P (fst kv) /\ P (snd kv)) l := match l with [] => Forall_nil _ | x :: l' => Forall_cons x (conj (ast_ind' (fst x)) (ast_ind' (snd x))) (go l') end) l)
    | AStruct n l => HSt n l ((fix go l : Forall (fun kv => P (snd kv)) l := match l with [] => Forall_nil _ | x :: l' => Forall_cons x (ast_ind' (snd x)) (go l') end) l)
    | AComp a b c d e x y => HCo a b c d e x y (ast_ind' a) (ast_ind' b) (ast_ind' c) (ast_ind' d) (ast_ind' e)
    | AUnspec => HU
    end.
End AstInd.

(** * The chains of an expression *)
(** [chain e q]: [e] is the identifier [q0] followed by the selections [.q1.q2…] *)
Inductive chain : ast -> path -> Prop :=
| ch_id n : chain (AIdent n) [n]
| ch_sel e q f b : chain e q -> chain (ASelect e f b) (q ++ [f]).
(** [mentions e q]: somewhere in [e] stands a chain [q] with at least one selection,
    which is not itself the operand of a further selection *)
Inductive mentions : ast -> path -> Prop :=
| me_chain e f b q : chain e q -> mentions (ASelect e f b) (q ++ [f])
| me_sel e f b q : (forall p, ~ chain e p) -> mentions e q -> mentions (ASelect e f b) q
| me_target t f args q : mentions t q -> mentions (ACall (Some t) f args) q
| me_arg t f args x q : In x args -> mentions x q -> mentions (ACall t f args) q
| me_item l x q : In x l -> mentions x q -> mentions (AList l) q
| me_key l k v q : In (k, v) l -> mentions k q -> mentions (AMap l) q
| me_value l k v q : In (k, v) l -> mentions v q -> mentions (AMap l) q
| me_field n l f v q : In (f, v) l -> mentions v q -> mentions (AStruct n l) q
| me_range a b c d e x y q : mentions a q -> mentions (AComp a b c d e x y) q
| me_init a b c d e x y q : mentions b q -> mentions (AComp a b c d e x y) q
| me_cond a b c d e x y q : mentions c q -> mentions (AComp a b c d e x y) q
| me_step a b c d e x y q : mentions d q -> mentions (AComp a b c d e x y) q
| me_result a b c d e x y q : mentions e q -> mentions (AComp a b c d e x y) q.
(** [sub e x]: [x] stands directly under [e] *)
Inductive sub : ast -> ast -> Prop :=
| su_sel e f b : sub (ASelect e f b) e
| su_target t f args : sub (ACall (Some t) f args) t
| su_arg t f args x : In x args -> sub (ACall t f args) x
| su_item l x : In x l -> sub (AList l) x
| su_key l k v : In (k, v) l -> sub (AMap l) k
| su_value l k v : In (k, v) l -> sub (AMap l) v
| su_field n l f v : In (f, v) l -> sub (AStruct n l) v
| su_range a b c d e x y : sub (AComp a b c d e x y) a
| su_init a b c d e x y : sub (AComp a b c d e x y) b
| su_cond a b c d e x y : sub (AComp a b c d e x y) c
| su_step a b c d e x y : sub (AComp a b c d e x y) d
| su_result a b c d e x y : sub (AComp a b c d e x y) e.
(** the selections of a tidy expression are made on chains or on the results of calls
    without a target *)
Definition selectable (e : ast) : Prop := (exists q, chain e q) \/ (exists f args, e = ACall None f args) \/ (exists x f b, e = ASelect x f b).
Inductive tidy : ast -> Prop :=
| tidy_all e : (forall x f b, e = ASelect x f b -> selectable x) -> (forall x, sub e x -> tidy x) -> tidy e.
Lemma tidy_sub e x : tidy e -> sub e x -> tidy x. Proof. intros H. inversion H. auto. Qed.
Lemma tidy_sel x f b : tidy (ASelect x f b) -> selectable x. Proof. intros H. inversion H. eauto. Qed.

(** a boolean version, for examples *)
Fixpoint tidyb (e : ast) : bool :=
  match e with
  | ASelect x _ _ => match x with AIdent _ | ACall None _ _ | ASelect _ _ _ => true | _ => false end && tidyb x
  | ACall t _ args => match t with Some x => tidyb x | None => true end && forallb tidyb args
  | AList l => forallb tidyb l
  | AMap l => forallb (fun kv => tidyb (fst kv) && tidyb (snd kv)) l
  | AStruct _ l => forallb (fun kv => tidyb (snd kv)) l
  | AComp a b c d e _ _ => tidyb a && tidyb b && tidyb c && tidyb d && tidyb e
  | _ => true
  end.
Lemma tidyb_tidy e : tidyb e = true -> tidy e.
Proof.
  induction e using ast_ind'; cbn [tidyb]; intros Ht; (constructor; [intros x0 f0 b0 E0; try discriminate E0|intros x0 S0; inversion S0; subst; clear S0]);
    repeat match goal with
    | H : _ && _ = true |- _ => apply andb_prop in H as [? ?]
    | H : forallb _ _ = true |- _ => rewrite forallb_forall in H
    | H : Forall _ _ |- _ => rewrite Forall_forall in H
    end; auto.
  - injection E0 as -> -> ->. destruct x0 as [|n|x g t|[|] g args| | | | |]; try discriminate.
    + left. eexists. constructor.
    + right. right. eauto.
    + right. left. eauto.
  - match goal with Hi : In (_, _) l |- _ => pose proof (Ht _ Hi) as Hx; cbn in Hx; apply andb_prop in Hx as [? ?]; apply (H _ Hi); auto end.
  - match goal with Hi : In (_, _) l |- _ => pose proof (Ht _ Hi) as Hx; cbn in Hx; apply andb_prop in Hx as [? ?]; apply (H _ Hi); auto end.
  - match goal with Hi : In (_, _) l |- _ => apply (H _ Hi), (Ht _ Hi) end.
Qed.

Lemma chain_fun e q : chain e q -> forall p, chain e p -> p = q.
Proof. induction 1 as [n|e q f b0 H IH]; intros p Hp; inversion Hp; subst; [reflexivity|]. match goal with H : chain e _ |- _ => now rewrite (IH _ H) end. Qed.
Lemma chain_nonempty e q : chain e q -> q <> []. Proof. destruct 1; [easy|]. intros H0. now apply app_eq_nil in H0. Qed.
Lemma chain_dec e : (exists q, chain e q) \/ forall q, ~ chain e q.
Proof.
  induction e using ast_ind'; try (right; intros q Hq; now inversion Hq).
  - left. eexists. constructor.
  - destruct IHe as [[q Hq]|Hn]; [left|right; intros q Hq; inversion Hq; subst; eapply Hn; eauto]. eexists. constructor. eauto.
Qed.

Definition added (s s' : pstate) (l : list path) : Prop := ps_path s' = [] /\ ps_all s' = ps_all s ++ l.

Lemma props_chain e q : chain e q -> forall s, ps_path s ++ tl q <> [] -> added s (props e s) [q ++ ps_path s].
Proof.
  induction 1 as [n|e q f b0 H IH]; intros s Hs.
  - cbn [tl] in Hs. rewrite app_nil_r in Hs. cbn [props]. destruct (ps_path s) as [|a p] eqn:Hp; [easy|]. now split.
  - cbn [props]. destruct (IH (set_path (f :: ps_path s) s)) as [H1 H2]; [easy|]. split; [exact H1|]. rewrite H2. cbn [set_path ps_all ps_path]. now rewrite <- app_assoc.
Qed.

Definition props_list := fix props_list (l : list ast) (s : pstate) {struct l} : pstate := match l with [] => s | a :: l' => props_list l' (props a s) end.
Definition props_entries := fix props_entries (l : list (ast * ast)) (s : pstate) {struct l} : pstate := match l with [] => s | (k, v) :: l' => props_entries l' (props v (props k s)) end.
Definition props_fields := fix props_fields (l : list (text * ast)) (s : pstate) {struct l} : pstate := match l with [] => s | (_, v) :: l' => props_fields l' (props v s) end.
Lemma props_call t f args s : props (ACall t f args) s = props_list args (match t with Some x => props x (note_body t f args s) | None => set_path [] (note_body t f args s) end).
Proof. reflexivity. Qed.
Lemma props_AList l s : props (AList l) s = props_list l s. Proof. reflexivity. Qed.
Lemma props_AMap l s : props (AMap l) s = props_entries l s. Proof. reflexivity. Qed.
Lemma props_AStruct n l s : props (AStruct n l) s = props_fields l s. Proof. reflexivity. Qed.
Lemma note_body_same t f args s : ps_all (note_body t f args s) = ps_all s /\ ps_path (note_body t f args s) = ps_path s.
Proof. unfold note_body. destruct t; [easy|]. destruct args as [|a [|]]; try easy. destruct (text_eqb f resp_json_fn); [|destruct (text_eqb f req_json_fn)]; [destruct a as [[]| | | | | | | |]|destruct a as [[]| | | | | | | |]|]; easy. Qed.

Definition collects (e : ast) : Prop := forall s, ps_path s = [] -> exists l, added s (props e s) l /\ forall q, In q l <-> mentions e q.
Lemma list_collects l : Forall collects l -> forall s, ps_path s = [] -> exists r, added s (props_list l s) r /\ forall q, In q r <-> exists x, In x l /\ mentions x q.
Proof.
  induction 1 as [|a l Ha Hl IH]; intros s Hs; cbn [props_list].
  - exists []. split; [split; [easy|now rewrite app_nil_r]|]. intros q. split; [easy|]. now intros (? & [] & _).
  - destruct (Ha s Hs) as (r1 & [A1 A2] & A3). destruct (IH _ A1) as (r2 & [B1 B2] & B3). exists (r1 ++ r2). split; [split; [exact B1|]|].
    + rewrite B2, A2. now rewrite app_assoc.
    + intros q. rewrite in_app_iff, A3, B3. split.
      * intros [H|(x & H1 & H2)]; [exists a|exists x]; cbn; auto.
      * intros (x & [->|H1] & H2); [now left|right; eauto].
Qed.
Lemma entries_collects l : Forall (fun kv => collects (fst kv) /\ collects (snd kv)) l -> forall s, ps_path s = [] ->
  exists r, added s (props_entries l s) r /\ forall q, In q r <-> exists k v, In (k, v) l /\ (mentions k q \/ mentions v q).
Proof.
  induction 1 as [|[k v] l [Hk Hv] Hl IH]; intros s Hs; cbn [props_entries].
  - exists []. split; [split; [easy|now rewrite app_nil_r]|]. intros q. split; [easy|]. now intros (? & ? & [] & _).
  - cbn [fst snd] in *. destruct (Hk s Hs) as (r0 & [A1 A2] & A3). destruct (Hv _ A1) as (r1 & [B1 B2] & B3). destruct (IH _ B1) as (r2 & [D1 D2] & D3). exists (r0 ++ r1 ++ r2). split; [split; [exact D1|]|].
    + rewrite D2, B2, A2. now rewrite !app_assoc.
    + intros q. rewrite !in_app_iff, A3, B3, D3. split.
      * intros [H|[H|(x & y & H1 & H2)]]; [exists k, v|exists k, v|exists x, y]; cbn; auto.
      * intros (x & y & [[= -> ->]|H1] & H2); [tauto|right; right; eauto].
Qed.
Lemma fields_collects l : Forall (fun kv : text * ast => collects (snd kv)) l -> forall s, ps_path s = [] ->
  exists r, added s (props_fields l s) r /\ forall q, In q r <-> exists k v, In (k, v) l /\ mentions v q.
Proof.
  induction 1 as [|[k v] l Hv Hl IH]; intros s Hs; cbn [props_fields].
  - exists []. split; [split; [easy|now rewrite app_nil_r]|]. intros q. split; [easy|]. now intros (? & ? & [] & _).
  - cbn [snd] in *. destruct (Hv _ Hs) as (r1 & [B1 B2] & B3). destruct (IH _ B1) as (r2 & [D1 D2] & D3). exists (r1 ++ r2). split; [split; [exact D1|]|].
    + rewrite D2, B2. now rewrite !app_assoc.
    + intros q. rewrite !in_app_iff, B3, D3. split.
      * intros [H|(x & y & H1 & H2)]; [exists k, v|exists x, y]; cbn; auto.
      * intros (x & y & [[= -> ->]|H1] & H2); [tauto|right; eauto].
Qed.

(** a selection on a call without a target: the collected path is dropped *)
Inductive rooted : ast -> ast -> Prop :=
| ro_call f args : rooted (ACall None f args) (ACall None f args)
| ro_sel e r f b : rooted e r -> rooted (ASelect e f b) r.
Lemma rooted_added e r : rooted e r -> (forall x, sub r x -> collects x) -> forall s, exists l, added s (props e s) l /\ forall q, In q l <-> mentions r q.
Proof.
  induction 1 as [g args|e r f0 b0 H IH]; intros Hc s.
  - rewrite props_call. destruct (list_collects args) with (s := set_path [] (note_body None g args s)) as (l & [A1 A2] & A3); [|reflexivity|].
    + apply Forall_forall. intros x Hx. apply Hc. now constructor.
    + exists l. split; [split; [exact A1|]|].
      * rewrite A2. cbn [set_path ps_all]. now rewrite (proj1 (note_body_same None g args s)).
      * intros q. rewrite A3. split; [intros (x & H1 & H2); econstructor; eauto|]. intros Hm. inversion Hm; subst. eauto.
  - cbn [props]. destruct (IH Hc (set_path (f0 :: ps_path s) s)) as (l & [A1 A2] & A3). now exists l.
Qed.
Lemma tidy_rooted e : tidy e -> forall x f b, e = ASelect x f b -> (exists q, chain x q) \/ exists r, rooted x r /\ (forall p, ~ chain x p) /\ (forall q, mentions e q <-> mentions r q) /\ forall y, sub r y -> tidy y.
Proof.
  induction e as [| |e g b0 IH| | | | | |] using ast_ind'; intros Ht x1 f1 b1 E1; try discriminate E1. injection E1 as <- <- <-. pose proof (tidy_sub _ e Ht (su_sel _ _ _)) as He.
  destruct (tidy_sel _ _ _ Ht) as [Hq|[(h & args & ->)|(y & h & b & ->)]]; [now left| |].
  - right. exists (ACall None h args). split; [constructor|]. assert (Hn : forall p, ~ chain (ACall None h args) p) by (intros p Hp; inversion Hp). split; [exact Hn|]. split.
    + intros q. split; [intros Hm; inversion Hm as [? ? ? ? H9|? ? ? ? H8 H9| | | | | | | | | | |]; subst; [now apply Hn in H9|exact H9]|]. now constructor.
    + intros y Hy. exact (tidy_sub _ _ He Hy).
  - destruct (IH He _ _ _ eq_refl) as [[q Hq]|(r & R1 & R2 & R3 & R4)]; [left; eexists; constructor; eauto|]. right. exists r.
    split; [now constructor|]. assert (Hn : forall p, ~ chain (ASelect y h b) p) by (intros p Hp; inversion Hp; subst; eapply R2; eauto). split; [exact Hn|]. split; [|exact R4].
    intros q. rewrite <- R3. split; [intros Hm; inversion Hm as [? ? ? ? H9|? ? ? ? H8 H9| | | | | | | | | | |]; subst; [now apply Hn in H9|exact H9]|]. now constructor.
Qed.
Inductive under : ast -> ast -> Prop :=
| un_refl e : under e e
| un_sub e x y : sub e x -> under x y -> under e y.
Lemma under_trans e x y : under e x -> under x y -> under e y.
Proof. induction 1; intros Hy; [exact Hy|]. econstructor; eauto. Qed.
Lemma rooted_under e r : rooted e r -> under e r.
Proof. induction 1; [constructor|]. econstructor; [constructor|assumption]. Qed.
Lemma collects_step e : tidy e -> (forall x y, sub e x -> under x y -> collects y) -> collects e.
Proof.
  intros Ht Hc s Hs. assert (Hd : forall x, sub e x -> collects x) by (intros x Hx; eapply Hc; [exact Hx|constructor]). destruct e as [v|n|x f b0|t f args|l|l|n l|a b c d e x y|].
  - exists []. split; [split; [exact Hs|cbn; now rewrite app_nil_r]|]. intros q. split; [easy|]. intros H; inversion H.
  - exists []. split; [cbn [props]; rewrite Hs; split; [exact Hs|now rewrite app_nil_r]|]. intros q. split; [easy|]. intros H; inversion H.
  - destruct (tidy_rooted _ Ht _ _ _ eq_refl) as [[q Hq]|(r & R1 & R2 & R3 & R4)].
    + destruct (props_chain _ _ (ch_sel _ _ f b0 Hq) s) as [A1 A2]; [rewrite Hs; cbn; destruct q; [now apply chain_nonempty in Hq|]; cbn; intros H; now apply app_eq_nil in H|].
      exists [q ++ [f]]. split; [split; [exact A1|]|]; [rewrite A2, Hs; now rewrite app_nil_r|]. intros p. split.
      * intros [<-|[]]. now constructor.
      * intros Hm. inversion Hm as [? ? ? p0 Hp|? ? ? ? Hn Hm'| | | | | | | | | | |]; subst; [left; now rewrite (chain_fun _ _ Hq _ Hp)|now apply Hn in Hq].
    + cbn [props]. destruct (rooted_added _ _ R1) with (s := set_path (f :: ps_path s) s) as (l & [A1 A2] & A3).
      * intros y Hy. apply (Hc x); [constructor|]. eapply under_trans; [apply rooted_under; exact R1|]. econstructor; [exact Hy|constructor].
      * exists l. split; [now split|]. intros q. now rewrite A3, R3.
  - rewrite props_call. assert (Ha : Forall collects args) by (apply Forall_forall; intros z Hz; apply Hd; now constructor). pose proof (note_body_same t f args s) as [N1 N2]. destruct t as [t|].
    + destruct (Hd t) with (s := note_body (Some t) f args s) as (l1 & [A1 A2] & A3); [constructor|congruence|]. destruct (list_collects _ Ha _ A1) as (l2 & [B1 B2] & B3).
      exists (l1 ++ l2). split; [split; [exact B1|]|]; [now rewrite B2, A2, N1, app_assoc|]. intros q. rewrite in_app_iff, A3, B3. split.
      * intros [H|(z & H1 & H2)]; [now apply me_target|eapply me_arg; eauto].
      * intros H. inversion H; subst; [now left|right; eauto].
    + destruct (list_collects _ Ha (set_path [] (note_body None f args s)) eq_refl) as (l2 & [B1 B2] & B3).
      exists l2. split; [split; [exact B1|]|]; [rewrite B2; cbn [set_path ps_all]; now rewrite N1|]. intros q. rewrite B3. split.
      * intros (z & H1 & H2). eapply me_arg; eauto.
      * intros H. inversion H; subst. eauto.
  - rewrite props_AList. destruct (list_collects l) with (s := s) as (r & A & B); [apply Forall_forall; intros z Hz; apply Hd; now constructor|exact Hs|].
    exists r. split; [exact A|]. intros q. rewrite B. split; [intros (z & H1 & H2); econstructor; eauto|]. intros H; inversion H; subst; eauto.
  - rewrite props_AMap. destruct (entries_collects l) with (s := s) as (r & A & B); [apply Forall_forall; intros [k v] Hz; split; apply Hd; [eapply su_key|eapply su_value]; exact Hz|exact Hs|].
    exists r. split; [exact A|]. intros q. rewrite B. split; [intros (k & v & H1 & [H2|H2]); [eapply me_key|eapply me_value]; eauto|]. intros H; inversion H; subst; eauto 6.
  - rewrite props_AStruct. destruct (fields_collects l) with (s := s) as (r & A & B); [apply Forall_forall; intros [k v] Hz; apply Hd; eapply su_field; exact Hz|exact Hs|].
    exists r. split; [exact A|]. intros q. rewrite B. split; [intros (k & v & H1 & H2); eapply me_field; eauto|]. intros H; inversion H; subst; eauto 6.
  - cbn [props]. destruct (Hd a) with (s := s) as (l1 & [A1 A2] & A3); [constructor|exact Hs|]. destruct (Hd b) with (s := props a s) as (l2 & [B1 B2] & B3); [constructor|exact A1|].
    destruct (Hd c) with (s := props b (props a s)) as (l3 & [C1 C2] & C3); [constructor|exact B1|].
    destruct (Hd d) with (s := props c (props b (props a s))) as (l4 & [D1 D2] & D3); [constructor|exact C1|].
    destruct (Hd e) with (s := props d (props c (props b (props a s)))) as (l5 & [E1 E2] & E3); [constructor|exact D1|].
    exists (l1 ++ l2 ++ l3 ++ l4 ++ l5). split; [split; [exact E1|]|]; [now rewrite E2, D2, C2, B2, A2, !app_assoc|]. intros q. rewrite !in_app_iff, A3, B3, C3, D3, E3. split.
    + intros [H|[H|[H|[H|H]]]]; [apply me_range|apply me_init|apply me_cond|apply me_step|apply me_result]; exact H.
    + intros H. inversion H; subst; tauto.
  - exists []. split; [split; [exact Hs|cbn; now rewrite app_nil_r]|]. intros q. split; [easy|]. intros H; inversion H.
Qed.
Lemma tidy_collects e : tidy e -> collects e.
Proof.
  intros H. cut (forall y, under e y -> collects y); [intros K; apply K; constructor|].
  induction H as [e H1 H2 IH]. intros y Hy. inversion Hy as [|? x ? Hx Hu]; subst.
  - apply collects_step; [now constructor|]. intros x z Hx Hz. eapply IH; eauto.
  - eapply IH; eauto.
Qed.

(** * The attributes of a parsed expression *)
Lemma ins_len_In a b l : In b (ins_len a l) <-> b = a \/ In b l.
Proof. induction l as [|x l IH]; cbn [ins_len]; [cbn; intuition|]. destruct (Nat.leb _ _); cbn [In]; [intuition|]. rewrite IH. intuition. Qed.
Lemma sort_len_In b l : In b (sort_len l) <-> In b l.
Proof. induction l as [|x l IH]; [easy|]. cbn [sort_len]. rewrite ins_len_In, IH. cbn. intuition. Qed.
Lemma strong_snoc {A} (R : A -> A -> Prop) l a : Sorted.StronglySorted R (l ++ [a]) -> Sorted.StronglySorted R l /\ forall b, In b l -> R b a.
Proof.
  induction l as [|x l IH]; intros H; [split; [constructor|easy]|]. cbn in H. inversion H as [|? ? S1 S2]; subst. destruct (IH S1) as [I1 I2].
  rewrite Forall_app in S2. destruct S2 as [S2 S3]. split; [now constructor|]. intros b [<-|Hb]; [now inversion S3|auto].
Qed.
Lemma strong_by_len l : Sorted.StronglySorted (fun a b => length (at_path a) <= length (at_path b)) l -> by_len l.
Proof. induction l as [|a l IH] using rev_ind; intros H; [constructor|]. apply strong_snoc in H as [H1 H2]. constructor; auto. Qed.
Lemma ins_len_sorted a l : Sorted.StronglySorted (fun a b => length (at_path a) <= length (at_path b)) l -> Sorted.StronglySorted (fun a b => length (at_path a) <= length (at_path b)) (ins_len a l).
Proof.
  induction 1 as [|b l H IH Hf]; cbn [ins_len]; [repeat constructor|]. destruct (Nat.leb_spec (length (at_path a)) (length (at_path b))) as [Hl|Hl].
  - constructor; [now constructor|]. constructor; [exact Hl|]. eapply Forall_impl; [|exact Hf]. cbn. intros; lia.
  - constructor; [exact IH|]. rewrite Forall_forall in *. intros x Hx. apply ins_len_In in Hx as [->|Hx]; [lia|auto].
Qed.
Lemma sort_len_by_len l : by_len (sort_len l).
Proof. apply strong_by_len. induction l as [|a l IH]; [constructor|]. now apply ins_len_sorted. Qed.

(** the names standing in an expression are not empty and have no backslash, as those a parser of CEL produces *)
Inductive name_in : ast -> text -> Prop :=
| ni_id n : name_in (AIdent n) n
| ni_field e f b : name_in (ASelect e f b) f
| ni_sub e x n : sub e x -> name_in x n -> name_in e n.
Definition clean_name (s : text) : Prop := s <> [] /\ ~ In backslash s.
Definition clean (e : ast) : Prop := forall n, name_in e n -> clean_name n.
Lemma clean_sub e x : clean e -> sub e x -> clean x. Proof. intros H Hs n Hn. apply H. econstructor; eauto. Qed.
Definition clean_state (s : pstate) : Prop := (forall q, In q (ps_all s) -> (exists a b q', q = a :: b :: q') /\ Forall clean_name q) /\ Forall clean_name (ps_path s).
Lemma props_clean e : clean e -> forall s, clean_state s -> clean_state (props e s).
Proof.
  assert (NB : forall t f args s, clean_state s -> clean_state (note_body t f args s)).
  { intros t f args s [H1 H2]. destruct (note_body_same t f args s) as [N1 N2]. split; [now rewrite N1|now rewrite N2]. }
  induction e as [v|n|e f b0 IH|t f args IHt IHa|l IH|l IH|n l IH|a b c d e x y Ia Ib Ic Id Ie|] using ast_ind'; intros Hc s Hs; try exact Hs.
  - cbn [props]. destruct Hs as [H1 H2]. destruct (ps_path s) as [|b p] eqn:Hp; [split; [exact H1|now rewrite Hp]|]. split; [|constructor]. cbn [ps_all]. intros q Hq. apply in_app_or in Hq as [Hq|[<-|[]]]; [auto|].
    split; [now exists n, b, p|]. constructor; [|exact H2]. apply Hc. constructor.
  - cbn [props]. apply IH; [eapply clean_sub; [exact Hc|constructor]|]. destruct Hs as [H1 H2]. split; [exact H1|]. cbn [set_path ps_path]. constructor; [|exact H2]. apply Hc. constructor.
  - rewrite props_call. assert (Hs2 : clean_state (match t with Some x => props x (note_body t f args s) | None => set_path [] (note_body t f args s) end)).
    { destruct t as [t|]; [apply (IHt t eq_refl); [eapply clean_sub; [exact Hc|constructor]|auto]|]. destruct (NB None f args s Hs) as [H1 _]. split; [exact H1|constructor]. }
    revert Hs2. generalize (match t with Some x => props x (note_body t f args s) | None => set_path [] (note_body t f args s) end) as s2.
    assert (Hca : forall x, In x args -> clean x) by (intros x Hx; eapply clean_sub; [exact Hc|now constructor]). clear - IHa Hca.
    induction IHa as [|x args Hx _ IH]; intros s2 Hs2; [exact Hs2|]. cbn [props_list]. apply IH; [intros y Hy; apply Hca; now right|]. apply Hx; [apply Hca; now left|exact Hs2].
  - rewrite props_AList. assert (Hca : forall x, In x l -> clean x) by (intros x Hx; eapply clean_sub; [exact Hc|now constructor]). clear Hc. revert s Hs.
    induction IH as [|x l Hx _ IH]; intros s Hs; [exact Hs|]. cbn [props_list]. apply IH; [intros y Hy; apply Hca; now right|]. apply Hx; [apply Hca; now left|exact Hs].
  - rewrite props_AMap. assert (Hca : forall k v, In (k, v) l -> clean k /\ clean v) by (intros k v Hx; split; (eapply clean_sub; [exact Hc|]); [eapply su_key|eapply su_value]; exact Hx). clear Hc. revert s Hs.
    induction IH as [|[k v] l [Hk Hv] _ IH]; intros s Hs; [exact Hs|]. cbn [props_entries]. destruct (Hca k v (or_introl eq_refl)). apply IH; [intros k' v' Hy; apply Hca; now right|]. auto.
  - rewrite props_AStruct. assert (Hca : forall k v, In (k, v) l -> clean v) by (intros k v Hx; eapply clean_sub; [exact Hc|]; eapply su_field; exact Hx). clear Hc. revert s Hs.
    induction IH as [|[k v] l Hv _ IH]; intros s Hs; [exact Hs|]. cbn [props_fields]. apply IH; [intros k' v' Hy; eapply Hca; right; exact Hy|]. apply Hv; [eapply Hca; now left|exact Hs].
  - cbn [props]. apply Ie; [eapply clean_sub; [exact Hc|constructor]|]. apply Id; [eapply clean_sub; [exact Hc|constructor]|]. apply Ic; [eapply clean_sub; [exact Hc|constructor]|].
    apply Ib; [eapply clean_sub; [exact Hc|constructor]|]. apply Ia; [eapply clean_sub; [exact Hc|constructor]|exact Hs].
Qed.
(** the paths collected for an expression *)
Definition collected (e : ast) : list path := paths_of (ex_attrs (expr_of e)).
Lemma collected_In e q : In q (collected e) <-> In q (ps_all (props e (mkPs [] [] [] []))) /\ is_grpc_path q = false.
Proof.
  unfold collected, paths_of, expr_of. cbn [ex_attrs]. rewrite in_map_iff. split.
  - intros (a & <- & Ha). apply (proj1 (sort_len_In _ _)) in Ha. apply in_map_iff in Ha as (p & <- & Hp). apply filter_In in Hp as [H1 H2]. cbn. split; [exact H1|now destruct (is_grpc_path p)].
  - intros [Hm Hg]. exists (attr_for q). split; [reflexivity|]. apply sort_len_In, in_map, filter_In. split; [exact Hm|now rewrite Hg].
Qed.
Lemma collected_clean e q : clean e -> In q (collected e) -> (exists a b q', q = a :: b :: q') /\ Forall clean_name q.
Proof. intros Hc Hq. apply collected_In in Hq as [Hq _]. apply (props_clean e Hc (mkPs [] [] [] [])); [split; [intros ? []|constructor]|exact Hq]. Qed.
Lemma expr_paths e q : tidy e -> In q (collected e) <-> mentions e q /\ is_grpc_path q = false.
Proof. intros Ht. destruct (tidy_collects e Ht (mkPs [] [] [] []) eq_refl) as (l & [_ A] & B). cbn [ps_all app] in A. rewrite collected_In, A, B. reflexivity. Qed.
Lemma expr_grpc e : tidy e -> ex_grpc (expr_of e) = true <-> exists q, mentions e q /\ is_grpc_path q = true.
Proof.
  intros Ht. destruct (tidy_collects e Ht (mkPs [] [] [] []) eq_refl) as (l & [_ A] & B). cbn [ps_all app] in A. unfold expr_of. cbn [ex_grpc]. rewrite A, existsb_exists.
  split; intros (q & H1 & H2); exists q; (split; [now apply B|exact H2]).
Qed.
Lemma mentions_nonempty e q : mentions e q -> q <> [].
Proof. induction 1; auto. intros H0. now apply app_eq_nil in H0. Qed.
Lemma expr_tidy_attrs e : clean e -> tidy_attrs (ex_attrs (expr_of e)).
Proof.
  intros Hc. assert (K : forall a, In a (ex_attrs (expr_of e)) -> In (at_path a) (collected e)) by (intros a Ha; now apply in_map).
  constructor.
  - apply sort_len_by_len.
  - intros a Ha. unfold expr_of in Ha. cbn [ex_attrs] in Ha. apply (proj1 (sort_len_In _ _)) in Ha. apply in_map_iff in Ha as (p & <- & _). reflexivity.
  - intros a Ha. destruct (collected_clean _ _ Hc (K a Ha)) as [(x & y & q & Hq) Hf]. rewrite Hq in *. cbn. inversion Hf as [|? ? [H _]]. exact H.
  - intros a Ha. destruct (collected_clean _ _ Hc (K a Ha)) as [(x & y & q & Hq) Hf]. split; [now rewrite Hq|]. rewrite Forall_forall in Hf. intros s Hs. now apply Hf.
Qed.

(** a boolean version of [clean], for examples *)
Definition clean_nameb (s : text) : bool := negb (Nat.eqb (length s) 0) && negb (existsb (Ascii.eqb backslash) s).
Lemma clean_nameb_spec s : clean_nameb s = true -> clean_name s.
Proof.
  unfold clean_nameb. intros H. apply andb_prop in H as [H1 H2]. split; [now destruct s|]. intros Hi. apply negb_true_iff in H2.
  assert (existsb (Ascii.eqb backslash) s = true) by (apply existsb_exists; exists backslash; split; [exact Hi|apply Ascii.eqb_refl]). congruence.
Qed.
Fixpoint cleanb (e : ast) : bool :=
  match e with
  | AIdent n => clean_nameb n
  | ASelect x f _ => clean_nameb f && cleanb x
  | ACall t _ args => match t with Some x => cleanb x | None => true end && forallb cleanb args
  | AList l => forallb cleanb l
  | AMap l => forallb (fun kv => cleanb (fst kv) && cleanb (snd kv)) l
  | AStruct _ l => forallb (fun kv => cleanb (snd kv)) l
  | AComp a b c d e _ _ => cleanb a && cleanb b && cleanb c && cleanb d && cleanb e
  | _ => true
  end.
Lemma cleanb_clean e : cleanb e = true -> clean e.
Proof.
  intros H n Hn. revert H. induction Hn as [n|e f|e x n Hs Hn IH]; cbn [cleanb]; intros H; [now apply clean_nameb_spec|apply andb_prop in H as [H _]; now apply clean_nameb_spec|].
  apply IH. clear IH Hn. destruct Hs; cbn [cleanb] in H;
    repeat match goal with
    | H : _ && _ = true |- _ => apply andb_prop in H as [? ?]
    | H : forallb _ _ = true, Hi : In _ _ |- _ => rewrite forallb_forall in H; specialize (H _ Hi); cbn [fst snd] in H
    end; auto.
Qed.

(** * What is fetched *)
Definition fetches (P : path -> Prop) (c c' : ctx) : Prop := forall k, tget k (c_cache c') <> None -> tget k (c_cache c) <> None \/ exists p, P p /\ k = path_show p.
Lemma fe_refl P c : fetches P c c. Proof. intros k. auto. Qed.
Lemma fe_trans P a b c : fetches P a b -> fetches P b c -> fetches P a c.
Proof. intros H1 H2 k Hk. destruct (H2 k Hk) as [H|H]; auto. Qed.
Lemma fe_put (P : path -> Prop) p v c : P p -> fetches P c (cache_put p v c).
Proof.
  intros Hp k. unfold cache_put. cbn [with_cache c_cache]. destruct (text_eq_dec k (path_show p)) as [->|Hn]; [intros _; right; eauto|].
  rewrite (aget_aset_other text_eqb text_eqb_eq) by assumption. auto.
Qed.
Lemma read_attr_fe E (P : path -> Prop) p c r c' : P p -> read_attr E p c = (r, c') -> fetches P c c'.
Proof.
  intros Hp. unfold read_attr. destruct (cache_get p c); [intros [= _ <-]; apply fe_refl|]. destruct (fetch E (c_log c) p); intros [= _ <-]; try apply fe_refl. now apply fe_put.
Qed.
Lemma ensure_fe E (P : path -> Prop) ps : Forall P ps -> forall c, fetches P c (ensure_attributes E ps c).
Proof.
  unfold ensure_attributes. induction 1 as [|p ps Hp _ IH]; intros c; [apply fe_refl|]. cbn [fold_left]. eapply fe_trans; [|apply IH].
  unfold populate. destruct (cache_get p c); [apply fe_refl|]. destruct (fetch E (c_log c) p); try apply fe_refl. now apply fe_put.
Qed.
Inductive leaves (P : path -> Prop) : token -> Prop :=
| le_val a : P (at_path a) -> leaves P (TokVal a)
| le_node l : (forall t tk, In (t, tk) l -> leaves P tk) -> leaves P (TokNode l).
Lemma tok_value_fe E (P : path -> Prop) t : leaves P t -> forall prefix c r c', tok_value E prefix t c = (r, c') -> fetches P c c'.
Proof.
  induction t as [l IH|a] using token_ind'; intros Hw prefix c r c'; cbn [tok_value]; inversion Hw as [? Hpl|? Hsub]; subst.
  - clear Hw. generalize (@nil (mkey * value)) as out0. revert c.
    induction IH as [|[key tk] l Ht Hl IHl]; intros c out; cbn [tok_go]; [intros [= _ <-]; apply fe_refl|].
    cbn [snd] in Ht. specialize (Ht (Hsub _ _ (or_introl eq_refl))). specialize (IHl (fun t tk Hi => Hsub t tk (or_intror Hi))).
    destruct (val_get _ c); [apply IHl|]. destruct (val_pending _ c); [intros [= _ <-]; apply fe_refl|]. destruct (_ && _ && _); [apply IHl|].
    destruct (tok_value E _ tk c) as [r1 c1] eqn:H. apply Ht in H. destruct r1 as [|v|]; try (intros [= _ <-]; exact H). intros Hg. eapply fe_trans; [exact H|]. eapply IHl; eauto.
  - unfold attr_get. destruct (read_attr E (at_path a) c) as [r1 c1] eqn:H. apply (read_attr_fe _ P) in H; [|exact Hpl]. destruct r1; intros [= _ <-]; exact H.
Qed.
Lemma ins_leaves (P : path -> Prop) a p : P (at_path a) -> forall m, leaves P (TokNode m) -> leaves P (TokNode (tok_insert p a m)).
Proof.
  intros Ha. induction p as [|t p IH]; intros m Hm; [exact Hm|]. inversion Hm as [|? Hs]; subst. destruct p as [|u p].
  - cbn [tok_insert]. constructor. intros x tk Hi. apply tset_In in Hi as [->|Hi]; [now constructor|eauto].
  - rewrite tok_insert_cons. destruct (tget t m) as [[sub|b]|] eqn:Hg; [| exact Hm|].
    + constructor. intros x tk Hi. apply tset_In in Hi as [->|Hi]; [|eauto]. apply IH. apply (aget_In text_eqb text_eqb_eq) in Hg. eauto.
    + constructor. intros x tk Hi. apply tset_In in Hi as [->|Hi]; [|eauto]. apply IH. constructor. intros ? ? [].
Qed.
Lemma attr_map_leaves (P : path -> Prop) l : (forall a, In a l -> P (at_path a)) -> leaves P (TokNode (attr_map l)).
Proof.
  unfold attr_map. assert (H0 : leaves P (TokNode [])) by (constructor; intros ? ? []). revert H0. generalize (@nil (text * token)) as m.
  induction l as [|a l IH]; intros m Hm Hl; [exact Hm|]. cbn [fold_left]. apply IH; [apply ins_leaves; [apply Hl; now left|exact Hm]|]. intros b Hb. apply Hl. now right.
Qed.
Lemma eval_vars_fe E ex vs c r c' : eval_vars E ex vs c = (r, c') ->
  fetches (fun p => In p (paths_of (ex_attrs ex)) \/ (ex_grpc ex = true /\ p = [tx "request"; tx "url_path"])) c c'.
Proof.
  set (P := fun p => _). unfold eval_vars. pose proof (ensure_fe E P (host_paths ex)) as H0. set (c1 := ensure_attributes E (host_paths ex) c) in *.
  assert (H1 : fetches P c c1).
  { apply H0. apply Forall_forall. intros p Hp. apply filter_In in Hp as [Hp _]. now left. }
  unfold data_map. destruct (tok_value E [] (TokNode (attr_map (ex_attrs ex))) c1) as [r1 c2] eqn:Ht. apply (tok_value_fe _ P) in Ht; [|apply attr_map_leaves; intros a Ha; left; now apply in_map].
  assert (H2 : fetches P c c2) by (eapply fe_trans; eauto). clear Ht H1 H0.
  destruct r1 as [|v|]; try (intros [= _ <-]; exact H2). destruct v as [| | | | | | | |m| | |]; try (intros [= _ <-]; exact H2).
  destruct (request_value E ex m c2) as [rv c3] eqn:Hrv. assert (H3 : fetches P c c3).
  { eapply fe_trans; [exact H2|]. unfold request_value in Hrv. destruct (ex_grpc ex) eqn:Hg; [|injection Hrv as _ <-; apply fe_refl]. destruct (resolve_grpc E c2) as [g c4] eqn:Hr. injection Hrv as _ <-.
    unfold resolve_grpc in Hr. destruct (h_reqheader E (c_log c2) _) as [ct|]; [|injection Hr as _ <-; apply fe_refl]. destruct (is_grpc_content_type ct); [|injection Hr as _ <-; apply fe_refl].
    unfold read_string in Hr. destruct (read_attr E _ c2) as [r1 c5] eqn:H. apply (read_attr_fe _ P) in H; [|right; now split]. destruct r1 as [|[[b|]|]|]; try (destruct (parse_string b)); injection Hr as _ <-; exact H. }
  destruct (body_map (ex_resp ex) _ _); [|intros [= _ <-]; exact H3]. destruct (body_map (ex_req ex) _ _); intros [= _ <-]; exact H3.
Qed.
