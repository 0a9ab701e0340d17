(** C88, C89: the requests generated for legacy actions. *)
From Coq Require Import String List NArith Bool Ascii Lia Sorting.Permutation Sorting.Sorted.
From Verif Require P_Scope P_Route.
From Verif Require Import Base Ctx Config Legacy CelSyn P_CelSyn Prop_Syn.
Import ListNotations.
Open Scope list_scope.

(** * More derivation rules *)
Definition closer (t : token) : bool := match t with TkP (PRP | PRB | PRC | PComma | PColon) => true | _ => false end.
Lemma no_closer n : forall x l g, closer x = true -> match g with GExpr | GBin _ | GUnary | GNot | GNeg | GMember | GPrim => True | _ => False end -> parse n g (x :: l) = None.
Proof.
  induction n as [|n IH]; intros x l g Hx Hg; [reflexivity|]. destruct x as [| | | |[]]; try discriminate Hx; destruct g as [|k| | | | | | | | | |]; try easy; cbn [parse]; try (rewrite IH; easy); destruct k; cbn [below]; rewrite IH; easy.
Qed.
Lemma expr_head x l t r : derive GExpr (x :: l) t r -> closer x = false.
Proof. intros [n H]. destruct (closer x) eqn:E; [|easy]. now rewrite (no_closer n x l GExpr E) in H. Qed.
Lemma expr_nonempty t r : ~ derive GExpr [] t r.
Proof. intros [n H]. do 10 (destruct n as [|n]; [discriminate H|]). discriminate H. Qed.
Definition ends (c : punct) : bool := match c with PRP | PRB | PRC => true | _ => false end.
Lemma closes_spec c t : closes c t = true -> t = TkP c /\ closer t = true.
Proof. destruct c; try discriminate; destruct t as [| | | |[]]; try discriminate; easy. Qed.
Lemma closes_refl c : ends c = true -> closes c (TkP c) = true.
Proof. now destruct c. Qed.

Lemma d_args_last c acc ts e r : ends c = true -> derive GExpr ts e [] -> derive (GArgs c acc) (ts ++ TkP c :: r) (TrList (acc ++ [e])) r.
Proof.
  intros Hc H. destruct ts as [|x ts]; [now apply expr_nonempty in H|]. pose proof (expr_head _ _ _ _ H) as Hx.
  apply (derive_ext _ _ _ _ (TkP c :: r)) in H; [|intros _; destruct c; try discriminate Hc; reflexivity]. destruct H as [n H]. exists (S n). cbn [parse app] in *.
  destruct (closes c x) eqn:E; [apply closes_spec in E; destruct E; congruence|]. cbn [andb]. rewrite H. destruct c; try discriminate Hc; reflexivity.
Qed.
Lemma d_args_more c acc ts e r t r' : ends c = true -> derive GExpr ts e [] -> derive (GArgs c (acc ++ [e])) r t r' -> derive (GArgs c acc) (ts ++ TkP PComma :: r) t r'.
Proof.
  intros Hc H Hr. destruct ts as [|x ts]; [now apply expr_nonempty in H|]. pose proof (expr_head _ _ _ _ H) as Hx.
  apply (derive_ext _ _ _ _ (TkP PComma :: r)) in H; [|reflexivity]. destruct H as [n H], Hr as [m Hr]. exists (S (n + m)). cbn [parse app] in *.
  destruct (closes c x) eqn:E; [apply closes_spec in E; destruct E; congruence|]. cbn [andb]. rewrite (parse_mono n _ _ _ _ H) by lia. now rewrite (parse_mono m _ _ _ _ Hr) by lia.
Qed.
Lemma d_args_none c r : ends c = true -> derive (GArgs c []) (TkP c :: r) (TrList []) r.
Proof. intros Hc. exists 1. cbn [parse]. rewrite (closes_refl c Hc). now destruct c. Qed.
(** comma-separated *)
Fixpoint commas (l : list (list token)) : list token := match l with [] => [] | [x] => x | x :: l' => x ++ TkP PComma :: commas l' end.
Lemma d_args c l ts r : ends c = true -> Forall2 (fun s t => derive GExpr s t []) l ts -> derive (GArgs c []) (commas l ++ TkP c :: r) (TrList ts) r.
Proof.
  intros Hc H. destruct H as [|s t l ts Hs H]; [now apply d_args_none|]. change (t :: ts) with ([] ++ t :: ts). generalize (@nil tree) as acc. revert s t Hs.
  induction H as [|s2 t2 l ts H2 H IH]; intros s t Hs acc; [now apply d_args_last|].
  change (commas (s :: s2 :: l)) with (s ++ TkP PComma :: commas (s2 :: l)). rewrite <- app_assoc. cbn [app]. apply (d_args_more c acc s t); [exact Hc|exact Hs|].
  replace (acc ++ t :: t2 :: ts) with ((acc ++ [t]) ++ t2 :: ts) by (now rewrite <- app_assoc). now apply IH.
Qed.
Lemma d_field_last m acc f ts v r : derive GExpr ts v [] -> derive (GFields m acc) (TkId f :: TkP PColon :: ts ++ TkP PRC :: r) (TrMsg m (acc ++ [(f, v)])) r.
Proof. intros H. apply (derive_ext _ _ _ _ (TkP PRC :: r)) in H; [|reflexivity]. destruct H as [n H]. exists (S n). cbn [parse app] in *. now rewrite H. Qed.
Lemma d_field_more m acc f ts v r t r' : derive GExpr ts v [] -> derive (GFields m (acc ++ [(f, v)])) r t r' -> derive (GFields m acc) (TkId f :: TkP PColon :: ts ++ TkP PComma :: r) t r'.
Proof.
  intros H [k Hr]. apply (derive_ext _ _ _ _ (TkP PComma :: r)) in H; [|reflexivity]. destruct H as [n H]. exists (S (n + k)). cbn [parse app] in *.
  rewrite (parse_mono n _ _ _ _ H) by lia. now rewrite (parse_mono k _ _ _ _ Hr) by lia.
Qed.
Lemma d_pair_last acc ks k ts v r : derive GExpr ks k [] -> derive GExpr ts v [] -> derive (GPairs acc) (ks ++ TkP PColon :: ts ++ TkP PRC :: r) (TrMap (acc ++ [(k, v)])) r.
Proof.
  intros Hk H. destruct ks as [|x ks]; [now apply expr_nonempty in Hk|]. pose proof (expr_head _ _ _ _ Hk) as Hx.
  apply (derive_ext _ _ _ _ (TkP PColon :: ts ++ TkP PRC :: r)) in Hk; [|reflexivity]. apply (derive_ext _ _ _ _ (TkP PRC :: r)) in H; [|reflexivity].
  destruct Hk as [a Hk], H as [n H]. exists (S (a + n)). cbn [parse app] in *. rewrite (parse_mono a _ _ _ _ Hk), (parse_mono n _ _ _ _ H) by lia. destruct x as [| | | |[]]; try reflexivity; discriminate Hx.
Qed.
Lemma d_pair_more acc ks k ts v r t r' : derive GExpr ks k [] -> derive GExpr ts v [] -> derive (GPairs (acc ++ [(k, v)])) r t r' -> derive (GPairs acc) (ks ++ TkP PColon :: ts ++ TkP PComma :: r) t r'.
Proof.
  intros Hk H [b Hr]. destruct ks as [|x ks]; [now apply expr_nonempty in Hk|]. pose proof (expr_head _ _ _ _ Hk) as Hx.
  apply (derive_ext _ _ _ _ (TkP PColon :: ts ++ TkP PComma :: r)) in Hk; [|reflexivity]. apply (derive_ext _ _ _ _ (TkP PComma :: r)) in H; [|reflexivity].
  destruct Hk as [a Hk], H as [n H]. exists (S (a + n + b)). cbn [parse app] in *. rewrite (parse_mono a _ _ _ _ Hk), (parse_mono n _ _ _ _ H), (parse_mono b _ _ _ _ Hr) by lia. destruct x as [| | | |[]]; try reflexivity; discriminate Hx.
Qed.
Lemma d_id s r : text_eqb s (tx "in") = false -> match r with TkP PLP :: _ => False | _ => True end -> derive GPrim (TkId s :: r) (TrId s) r.
Proof. intros Hs Hr. exists 1. cbn [parse]. rewrite Hs. destruct r as [|[| | | |[]] r]; easy. Qed.
Lemma d_sel t f r u r' : match r with TkP PLP :: _ => False | _ => True end -> derive (GPost (TrSel t f)) r u r' -> derive (GPost t) (TkP PDot :: TkId f :: r) u r'.
Proof. intros Hr [n H]. exists (S n). cbn [parse]. destruct r as [|[| | | |[]] r]; easy. Qed.
Lemma d_call s ts l r : text_eqb s (tx "in") = false -> derive (GArgs PRP []) ts (TrList l) r -> derive GPrim (TkId s :: TkP PLP :: ts) (TrCall None s l) r.
Proof. intros Hs [n H]. exists (S n). cbn [parse]. now rewrite Hs, H. Qed.
Lemma d_list ts t r : derive (GArgs PRB []) ts t r -> derive GPrim (TkP PLB :: ts) t r.
Proof. intros [n H]. exists (S n). cbn [parse]. exact H. Qed.
Lemma d_map ts t r : derive (GPairs []) ts t r -> derive GPrim (TkP PLC :: ts) t r.
Proof. intros [n H]. exists (S n). cbn [parse]. exact H. Qed.
Lemma d_struct t ts m r u r' : dotted t = true -> derive (GFields t []) ts m r -> derive (GPost m) r u r' -> derive (GPost t) (TkP PLC :: ts) u r'.
Proof. intros Ht [n H] [k Hr]. exists (S (n + k)). cbn [parse]. rewrite Ht, (parse_mono n _ _ _ _ H) by lia. now rewrite (parse_mono k _ _ _ _ Hr) by lia. Qed.
Lemma d_top ts t : derive GMember ts t [] -> match ts with TkP (PNot | PMinus) :: _ => False | _ => True end -> derive GExpr ts t [].
Proof. intros H Ht. apply d_expr; [|exact Logic.I]. now apply (d_up VOr). Qed.
Lemma d_done t : derive (GPost t) [] t [].
Proof. now exists 1. Qed.

(** names of message types *)
Fixpoint sel_toks (l : list text) (z : list token) : list token := match l with [] => z | f :: l' => TkP PDot :: TkId f :: sel_toks l' z end.
Fixpoint sel_tree (t : tree) (l : list text) : tree := match l with [] => t | f :: l' => sel_tree (TrSel t f) l' end.
Lemma d_sels l : forall t z u r, match z with TkP PLP :: _ => False | _ => True end -> derive (GPost (sel_tree t l)) z u r -> derive (GPost t) (sel_toks l z) u r.
Proof.
  induction l as [|f l IH]; intros t z u r Hz H; [exact H|]. cbn [sel_toks]. apply d_sel; [destruct l; [exact Hz|exact Logic.I]|]. now apply IH.
Qed.
Lemma dotted_sel l : forall t, dotted t = true -> dotted (sel_tree t l) = true.
Proof. induction l as [|f l IH]; intros t H; [exact H|]. cbn. now apply IH. Qed.
(** a message literal *)
Lemma d_message s l ts fs : text_eqb s (tx "in") = false -> derive (GFields (sel_tree (TrId s) l) []) ts (TrMsg (sel_tree (TrId s) l) fs) [] ->
  derive GExpr (TkId s :: sel_toks l (TkP PLC :: ts)) (TrMsg (sel_tree (TrId s) l) fs) [].
Proof.
  intros Hs H. apply d_top; [|exact Logic.I]. eapply d_member; [apply d_id; [exact Hs|now destruct l]|]. apply d_sels; [exact Logic.I|].
  eapply d_struct; [now apply dotted_sel|exact H|apply d_done].
Qed.
Lemma d_one_call s ts e : text_eqb s (tx "in") = false -> derive GExpr ts e [] -> derive GExpr (TkId s :: TkP PLP :: ts ++ [TkP PRP]) (TrCall None s [e]) [].
Proof.
  intros Hs H. apply d_top; [|exact Logic.I]. eapply d_member; [|apply d_done]. apply d_call; [exact Hs|]. apply (d_args_last PRP [] ts e []); [reflexivity|exact H].
Qed.
Lemma d_lit s : derive GExpr [TkStr s] (TrStr s) [].
Proof. exists 10. reflexivity. Qed.
Lemma d_list_of l ts : Forall2 (fun s t => derive GExpr s t []) l ts -> derive GMember (TkP PLB :: commas l ++ [TkP PRB]) (TrList ts) [].
Proof. intros H. eapply d_member; [apply d_list, (d_args PRB l ts []); [reflexivity|exact H]|apply d_done]. Qed.

(** * Tokens of joined text *)
Lemma join_commas ps tss : Forall2 tokens ps tss -> tokens (join (tx ", ") ps) (commas tss).
Proof.
  intros H. destruct H as [|p ts ps tss Hp H]; [apply frag_tokens; reflexivity|]. revert p ts Hp. induction H as [|q tq ps tss Hq H IH]; intros p ts Hp; [exact Hp|].
  change (join (tx ", ") (p :: q :: ps)) with (p ++ tx ", " ++ join (tx ", ") (q :: ps)). change (commas (ts :: tq :: tss)) with (ts ++ [TkP PComma] ++ commas (tq :: tss)).
  apply T_glue; [exact Hp|reflexivity|]. apply T_frag; [reflexivity|now apply IH].
Qed.
(** [reads s t]: [s] is an expression [t], and stays one in any context of separators *)
Definition reads (s : text) (t : tree) : Prop := exists ts, tokens s ts /\ derive GExpr ts t [].
Lemma reads_wf s t : wf s t <-> reads s t.
Proof. split; [apply wf_tokens|]. intros (ts & H1 & H2). exact (tokens_wf _ _ _ H1 H2). Qed.
Lemma reads_parses s t : reads s t -> parses s t.
Proof. intros H. now apply wf_parses, reads_wf. Qed.
Lemma reads_quoted s : reads (quoted s) (TrStr s).
Proof. exists [TkStr s]. split; [apply quoted_tokens|apply d_lit]. Qed.
Lemma reads_call f e t : text_eqb f (tx "in") = false -> frag (f ++ tx "(") [TkId f; TkP PLP] -> reads e t -> reads (f ++ tx "(" ++ e ++ tx ")") (TrCall None f [t]).
Proof.
  intros Hf Hfr (ts & H1 & H2). exists (TkId f :: TkP PLP :: ts ++ [TkP PRP]). split; [|now apply d_one_call]. rewrite app_assoc.
  change (TkId f :: TkP PLP :: ts ++ [TkP PRP]) with ([TkId f; TkP PLP] ++ ts ++ [TkP PRP]). apply T_frag; [exact Hfr|]. now apply T_glue; [|reflexivity|apply frag_tokens].
Qed.
Lemma Forall2_reads ps ts : Forall2 reads ps ts -> exists tss, Forall2 tokens ps tss /\ Forall2 (fun s t => derive GExpr s t []) tss ts.
Proof.
  induction 1 as [|p t ps ts (tk & H1 & H2) _ (tss & I1 & I2)]; [exists []; split; constructor|]. exists (tk :: tss). split; constructor; assumption.
Qed.
Lemma reads_list ps ts : Forall2 reads ps ts -> exists tk, tokens (tx "[" ++ join (tx ", ") ps ++ tx "]") tk /\ derive GMember tk (TrList ts) [] /\ match tk with TkP (PNot | PMinus) :: _ => False | _ => True end.
Proof.
  intros H. destruct (Forall2_reads _ _ H) as (tss & H1 & H2). exists ([TkP PLB] ++ commas tss ++ [TkP PRB]). split; [|split; [now apply d_list_of|exact Logic.I]].
  apply T_frag; [reflexivity|]. apply T_glue; [now apply join_commas|reflexivity|apply frag_tokens; reflexivity].
Qed.

(** left-associated chains *)
Definition conj (ts : list tree) : tree := match ts with [] => TrId (tx "true") | t :: l => fold_left TrAnd l t end.
Lemma chain_tree tss ts : Forall2 (fun s t => derive GExpr s t []) tss ts -> forall acc, derive (GLoop VAnd acc) (chain PAnd tss []) (fold_left TrAnd ts acc) [].
Proof.
  induction 1 as [|s t tss ts H _ IH]; intros acc; cbn [chain fold_left]; [now apply d_stop|].
  apply (d_op VAnd acc (TkP PAnd) TrAnd _ t (chain PAnd tss [])); [reflexivity| |apply IH]. unfold ptoks. cbn [app]. rewrite <- app_assoc. cbn [app].
  apply (d_paren_up VRel); [exact H|]. now destruct tss.
Qed.
Lemma reads_join ps ts : Forall2 reads ps ts -> reads (join_predicates ps (tx "&&")) (conj ts).
Proof.
  intros H. destruct H as [|p t ps ts Hp H]; [apply reads_wf, true_wf|]. destruct H as [|q t2 ps ts Hq H]; [exact Hp|].
  assert (Ha : Forall2 reads (q :: ps) (t2 :: ts)) by (constructor; assumption). clear Hq H. destruct Hp as (tp & Htp & Hdp). destruct (Forall2_reads _ _ Ha) as (tss & H1 & H2).
  exists (ptoks tp ++ chain PAnd tss []). split.
  - apply frag_tokens. now apply (join_chain (tx "&&") PAnd eq_refl).
  - apply d_expr; [|exact Logic.I]. apply (d_below VOr _ (conj (t :: t2 :: ts)) []); [|now apply d_stop]. apply (d_below VAnd _ t (chain PAnd tss [])); [|now apply chain_tree].
    unfold ptoks. cbn [app]. rewrite <- app_assoc. cbn [app]. apply (d_paren_up VRel); [exact Hdp|]. now destruct tss.
Qed.
Fixpoint plus (tss : list (list token)) : list token := match tss with [] => [] | ts :: l => TkP PPlus :: ts ++ plus l end.
Definition sum (ts : list tree) : tree := match ts with [] => TrList [] | t :: l => fold_left (TrBin PPlus) l t end.
(** [operand s t]: [s] is an operand of any operator *)
Definition operand (s : text) (t : tree) : Prop := exists ts, tokens s ts /\ derive GMember ts t [] /\ match ts with TkP (PNot | PMinus) :: _ => False | _ => True end.
Lemma member_mul ts t z : derive GMember ts t [] -> match ts with TkP (PNot | PMinus) :: _ => False | _ => True end -> stops (GBin VMul) z -> derive (GBin VMul) (ts ++ z) t z.
Proof.
  intros H Ht Hz. apply (derive_ext _ _ _ _ z) in H; [|intros _; now apply (stops_member VMul)]. apply d_up; [exact H| |exact Hz]. destruct ts as [|x ts]; [|exact Ht].
  destruct H as [n H]. exfalso. clear - H. destruct z as [|x z]; [do 4 (destruct n as [|n]; [discriminate H|]); discriminate H|].
  destruct n as [|n]; [discriminate|]. cbn [parse app] in H. destruct (parse n GPrim (x :: z)) as [[a r]|] eqn:E; [|discriminate].
  assert (Hl : forall n g ts t r, parse n g ts = Some (t, r) -> match g with GPrim | GExpr | GBin _ | GUnary | GNot | GNeg | GMember => List.length r < List.length ts | GArgs _ _ | GPairs _ | GFields _ _ => List.length r < List.length ts | _ => List.length r <= List.length ts end); [|pose proof (Hl n _ _ _ _ E); pose proof (Hl n _ _ _ _ H); cbn in *; lia].
  clear. induction n as [|n IH]; intros g ts t r H; [discriminate|].
  assert (I1 : forall g ts t r, parse n g ts = Some (t, r) -> List.length r <= List.length ts) by (intros g0 ts0 t0 r0 H0; apply IH in H0; destruct g0; lia).
  destruct g as [|k|k a| | | | |t0| |c acc|acc|t0 acc]; cbn [parse] in H;
    repeat match goal with
    | H : context [match parse n ?g ?ts with _ => _ end] |- _ => let E := fresh "E" in destruct (parse n g ts) as [[? ?]|] eqn:E; [|discriminate H]
    | H : context [match binop ?k ?t with _ => _ end] |- _ => destruct (binop k t)
    | H : context [if ?b then _ else _] |- _ => destruct b
    | H : context [match ?l with [] => _ | _ => _ end] |- _ => is_var l; destruct l
    | H : context [match ?x with TkId _ => _ | _ => _ end] |- _ => is_var x; destruct x
    | H : context [match ?x with PLP => _ | _ => _ end] |- _ => is_var x; destruct x
    | H : context [match ?x with TrId _ => _ | _ => _ end] |- _ => is_var x; destruct x
    | H : Some _ = Some _ |- _ => injection H as <- <-
    | H : None = Some _ |- _ => discriminate H
    end;
    repeat match goal with H : parse n ?g ?ts = Some _ |- _ => apply IH in H end;
    repeat match goal with k : level |- _ => destruct k end; cbn [List.length below] in *; try lia.
Qed.
Lemma plus_tree tss ts : Forall2 (fun s t => derive GMember s t [] /\ match s with TkP (PNot | PMinus) :: _ => False | _ => True end) tss ts ->
  forall acc, derive (GLoop VAdd acc) (plus tss) (fold_left (TrBin PPlus) ts acc) [].
Proof.
  induction 1 as [|s t tss ts [H Hs] _ IH]; intros acc; cbn [plus fold_left]; [now apply d_stop|].
  apply (d_op VAdd acc (TkP PPlus) (TrBin PPlus) _ t (plus tss)); [reflexivity| |apply IH]. apply member_mul; [exact H|exact Hs|]. now destruct tss.
Qed.
Lemma reads_sum ps ts : ps <> [] -> Forall2 operand ps ts -> reads (join (tx " + ") ps) (sum ts).
Proof.
  intros Hne H. destruct H as [|p t ps ts (tp & Hp & Hd & Hn) H]; [easy|]. clear Hne.
  assert (Hx : exists tss, Forall2 tokens ps tss /\ Forall2 (fun s t => derive GMember s t [] /\ match s with TkP (PNot | PMinus) :: _ => False | _ => True end) tss ts).
  { induction H as [|q u ps ts (tq & Q1 & Q2) _ (tss & I1 & I2)]; [exists []; split; constructor|]. exists (tq :: tss). split; constructor; assumption. }
  destruct Hx as (tss & H1 & H2). exists (tp ++ plus tss). split.
  - clear - Hp H1. revert p tp Hp. induction H1 as [|q tq ps tss Hq H IH]; intros p tp Hp; [cbn; now rewrite app_nil_r|].
    change (join (tx " + ") (p :: q :: ps)) with (p ++ tx " + " ++ join (tx " + ") (q :: ps)). cbn [plus]. change (TkP PPlus :: tq ++ plus tss) with ([TkP PPlus] ++ tq ++ plus tss).
    apply T_glue; [exact Hp|reflexivity|]. apply T_frag; [reflexivity|now apply IH].
  - apply d_expr; [|exact Logic.I]. cbn [sum]. set (u := fold_left (TrBin PPlus) ts t).
    apply (d_below VOr _ u []); [|now apply d_stop]. apply (d_below VAnd _ u []); [|now apply d_stop]. apply (d_below VRel _ u []); [|now apply d_stop].
    apply (d_below VAdd _ t (plus tss)); [|now apply plus_tree]. apply member_mul; [exact Hd|exact Hn|]. now destruct tss.
Qed.

(** * C88: the rate-limit request *)

(** what the documentation says is sent; [rd e] is the expression with source [e] *)
Section Spec.
  Variable rd : text -> tree.
  Definition msg (pkg : list text) (fs : list (text * tree)) : tree :=
    TrMsg (match pkg with [] => TrId [] | s :: l => sel_tree (TrId s) l end) fs.
  Definition v3 : list text := [tx "envoy"; tx "extensions"; tx "common"; tx "ratelimit"; tx "v3"].
  Definition entry (k : text) (v : tree) : tree := msg (v3 ++ [tx "RateLimitDescriptor"; tx "Entry"]) [(tx "key", TrStr k); (tx "value", v)].
  Definition as_string (t : tree) : tree := TrCall None (tx "string") [t].
  Definition item_tree (i : data_item) : tree := match i with DStatic k v => entry k (TrStr v) | DExpr k e => entry k (as_string (rd e)) end.
  Definition special (i : data_item) : bool := match i with DStatic k _ | DExpr k _ => text_eqb k (tx "ratelimit.domain") || text_eqb k (tx "ratelimit.hits_addend") end.
  Definition ordinary_items (cd : cond_data) : list data_item := filter (fun i => negb (special i)) (cd_data cd).
  (** the entries of a block, if its predicates hold *)
  Definition block_tree (cd : cond_data) : tree :=
    let l := TrList (map item_tree (ordinary_items cd)) in
    match cd_preds cd with [] => l | ps => TrCond (conj (map rd ps)) l (TrList []) end.
  Definition descriptor (es : tree) : tree := msg (v3 ++ [tx "RateLimitDescriptor"]) [(tx "entries", es)].
  (** the first item with a key *)
  Definition named (k : text) (cds : list cond_data) : option data_item :=
    find (fun i => match i with DStatic k' _ | DExpr k' _ => text_eqb k' k end) (flat_map cd_data cds).
  Definition domain_tree (scope : text) (cds : list cond_data) : tree :=
    match named (tx "ratelimit.domain") cds with Some (DStatic _ v) => TrStr v | Some (DExpr _ e) => rd e | None => TrStr scope end.
  Definition hits_tree (cds : list cond_data) : tree :=
    match named (tx "ratelimit.hits_addend") cds with Some (DStatic _ e) | Some (DExpr _ e) => TrCall None (tx "uint") [rd e] | None => TrNum (tx "1u") end.
  Definition data_key (domain field : text) : text := match domain with [] => field | _ => if text_eqb domain (tx "metrics.labels") then field else domain ++ tx "." ++ field end.
  Definition request_tree (scope : text) (cds : list cond_data) (d : rdata) : tree :=
    let blocks := filter (fun cd => match ordinary_items cd with [] => false | _ => true end) cds in
    msg [tx "envoy"; tx "service"; tx "ratelimit"; tx "v3"; tx "RateLimitRequest"]
      [(tx "domain", domain_tree scope cds); (tx "hits_addend", hits_tree cds);
       (tx "descriptors", TrList ((match blocks with [] => [] | _ => [descriptor (sum (map block_tree blocks))] end) ++
                                  (match d with [] => [] | _ => [descriptor (TrList (map (fun r => entry (data_key (fst (fst r)) (snd (fst r))) (as_string (rd (snd r)))) d))] end)))].
End Spec.
(** the texts of the configuration that are used as expressions *)
Definition expressions (cds : list cond_data) (d : rdata) : list text :=
  flat_map cd_preds cds ++
  flat_map (fun i => match i with DExpr _ e => [e] | DStatic k v => if text_eqb k (tx "ratelimit.hits_addend") then [v] else [] end) (flat_map cd_data cds) ++
  map snd d.

Lemma reads_msg (s : text) (l : list text) open ts fs text_ tz :
  text_eqb s (tx "in") = false -> frag open (TkId s :: sel_toks l [TkP PLC]) -> tokens text_ tz -> tz = ts ->
  derive (GFields (sel_tree (TrId s) l) []) ts (TrMsg (sel_tree (TrId s) l) fs) [] -> reads (open ++ text_) (TrMsg (sel_tree (TrId s) l) fs).
Proof.
  intros Hs Ho Ht -> Hd. exists ((TkId s :: sel_toks l [TkP PLC]) ++ ts). split; [now apply T_frag|].
  replace ((TkId s :: sel_toks l [TkP PLC]) ++ ts) with (TkId s :: sel_toks l (TkP PLC :: ts)); [now apply d_message|].
  cbn [app]. f_equal. clear. induction l as [|f l IH]; [reflexivity|]. cbn. now rewrite IH.
Qed.
Lemma reads_entry k v t : reads v t -> reads (entry_cel k v) (entry k t).
Proof.
  intros (ts & H1 & H2). unfold entry_cel, entry, msg, v3. cbn [app].
  replace (tx "envoy.extensions.common.ratelimit.v3.RateLimitDescriptor.Entry { key: " ++ quoted k ++ tx ", value: " ++ v ++ tx " }")
    with (tx "envoy.extensions.common.ratelimit.v3.RateLimitDescriptor.Entry {" ++ tx " key: " ++ quoted k ++ tx ", value: " ++ v ++ tx " }") by reflexivity.
  eapply reads_msg; [reflexivity|reflexivity| |reflexivity|].
  - apply (T_frag (tx " key: ") [TkId (tx "key"); TkP PColon]); [reflexivity|]. apply T_glue; [apply quoted_tokens|reflexivity|].
    apply (T_frag (tx ", value: ") [TkP PComma; TkId (tx "value"); TkP PColon]); [reflexivity|]. apply (T_glue _ ts _ [TkP PRC]); [exact H1|reflexivity|apply frag_tokens; reflexivity].
  - cbn [app]. apply (d_field_more _ [] (tx "key") [TkStr k] (TrStr k)); [apply d_lit|]. apply (d_field_last _ [(tx "key", TrStr k)] (tx "value") ts t []). exact H2.
Qed.
Lemma reads_descriptor e t : reads e t -> reads (descriptor_cel e) (descriptor t).
Proof.
  intros (ts & H1 & H2). unfold descriptor_cel, descriptor, msg, v3. cbn [app].
  replace (tx "envoy.extensions.common.ratelimit.v3.RateLimitDescriptor { entries: " ++ e ++ tx " }")
    with (tx "envoy.extensions.common.ratelimit.v3.RateLimitDescriptor {" ++ tx " entries: " ++ e ++ tx " }") by reflexivity.
  eapply reads_msg; [reflexivity|reflexivity| |reflexivity|].
  - apply (T_frag (tx " entries: ") [TkId (tx "entries"); TkP PColon]); [reflexivity|]. apply (T_glue _ ts _ [TkP PRC]); [exact H1|reflexivity|apply frag_tokens; reflexivity].
  - cbn [app]. apply (d_field_last _ [] (tx "entries") ts t []). exact H2.
Qed.
Lemma reads_string e t : reads e t -> reads (tx "string(" ++ e ++ tx ")") (as_string t).
Proof. intros H. exact (reads_call (tx "string") e t eq_refl eq_refl H). Qed.
Lemma reads_uint e t : reads e t -> reads (tx "uint(" ++ e ++ tx ")") (TrCall None (tx "uint") [t]).
Proof. intros H. exact (reads_call (tx "uint") e t eq_refl eq_refl H). Qed.
Lemma operand_reads s t : operand s t -> reads s t.
Proof. intros (ts & H1 & H2 & H3). exists ts. split; [exact H1|now apply d_top]. Qed.
Lemma list_operand ps ts : Forall2 reads ps ts -> operand (tx "[" ++ join (tx ", ") ps ++ tx "]") (TrList ts).
Proof. exact (reads_list ps ts). Qed.
Lemma cond_operand c tc l tl : reads c tc -> operand l tl -> operand (tx "((" ++ c ++ tx ") ? " ++ l ++ tx " : [])") (TrCond tc tl (TrList [])).
Proof.
  intros (tk & H1 & H2) (lk & L1 & L2 & L3). exists ([TkP PLP; TkP PLP] ++ tk ++ [TkP PRP; TkP PQ] ++ lk ++ [TkP PColon; TkP PLB; TkP PRB; TkP PRP]). split; [|split; [|exact Logic.I]].
  - apply T_frag; [reflexivity|]. apply T_glue; [exact H1|reflexivity|]. apply T_frag; [reflexivity|]. apply T_glue; [exact L1|reflexivity|apply frag_tokens; reflexivity].
  - cbn [app]. replace (TkP PLP :: TkP PLP :: tk ++ TkP PRP :: TkP PQ :: lk ++ [TkP PColon; TkP PLB; TkP PRB; TkP PRP])
      with (TkP PLP :: (TkP PLP :: tk ++ TkP PRP :: TkP PQ :: lk ++ [TkP PColon; TkP PLB; TkP PRB]) ++ TkP PRP :: []).
    2:{ cbn [app]. do 2 f_equal. rewrite <- app_assoc. cbn [app]. do 3 f_equal. now rewrite <- app_assoc. }
    eapply d_member; [apply d_paren|apply d_done]. apply (d_cond _ tc (lk ++ [TkP PColon; TkP PLB; TkP PRB]) tl [TkP PLB; TkP PRB]).
    + now apply d_paren_up.
    + apply (derive_ext _ _ _ _ [TkP PColon; TkP PLB; TkP PRB]) in L2; [|reflexivity]. apply d_up; [exact L2| |reflexivity]. destruct lk; [|exact L3]. exact Logic.I.
    + exists 20. reflexivity.
Qed.

Lemma find_some_app {A B} (f : A -> option B) l m : find_some f (l ++ m) = match find_some f l with Some x => Some x | None => find_some f m end.
Proof. induction l as [|a l IH]; [reflexivity|]. cbn. now destruct (f a). Qed.
Lemma known_named k cds : find_known_attr cds k = match named k cds with Some i => known_attr_cel k i | None => None end.
Proof.
  unfold find_known_attr, named. assert (H : forall l, find_some (known_attr_cel k) l = match find (fun i => match i with DStatic k' _ | DExpr k' _ => text_eqb k' k end) l with Some i => known_attr_cel k i | None => None end).
  { induction l as [|i l IH]; [reflexivity|]. cbn. unfold known_attr_cel at 1. replace (item_key i) with (match i with DStatic k' _ | DExpr k' _ => k' end) by reflexivity.
    destruct i as [k' v|k' v]; destruct (text_eqb k' k) eqn:E; try exact IH; unfold known_attr_cel; cbn; now rewrite E. }
  rewrite <- H. induction cds as [|cd cds IH]; [reflexivity|]. cbn. rewrite find_some_app. now rewrite IH.
Qed.
Lemma named_In k cds i : named k cds = Some i -> In i (flat_map cd_data cds) /\ item_key i = k.
Proof. intros H. apply find_some in H || apply List.find_some in H. destruct H as [H1 H2]. split; [exact H1|]. destruct i; now apply text_eqb_eq. Qed.
Lemma special_known i : special i = known_rl_attr i.
Proof. destruct i; unfold special, known_rl_attr, mem_text; cbn [item_key existsb]; now rewrite orb_false_r. Qed.

Section Request.
  Variables (rd : text -> tree) (cds : list cond_data) (d : rdata).
  Hypothesis Hrd : forall e, In e (expressions cds d) -> reads e (rd e).
  Lemma rd_item cd k e : In cd cds -> In (DExpr k e) (cd_data cd) -> reads e (rd e).
  Proof.
    intros Hc Hi. apply Hrd. apply in_or_app. right. apply in_or_app. left. apply in_flat_map. exists (DExpr k e). split; [apply in_flat_map; eauto|now left].
  Qed.
  Lemma rd_preds cd : In cd cds -> Forall2 reads (cd_preds cd) (map rd (cd_preds cd)).
  Proof.
    intros Hc. assert (H : forall p, In p (cd_preds cd) -> reads p (rd p)) by (intros p Hp; apply Hrd, in_or_app; left; apply in_flat_map; eauto).
    induction (cd_preds cd) as [|p l IH]; constructor; [apply H; now left|apply IH; intros q Hq; apply H; now right].
  Qed.
  Lemma rd_entries cd : In cd cds -> Forall2 reads (map item_entry (filter (fun i => negb (known_rl_attr i)) (cd_data cd))) (map (item_tree rd) (ordinary_items cd)).
  Proof.
    intros Hc. unfold ordinary_items. assert (H : forall i, In i (cd_data cd) -> reads (item_entry i) (item_tree rd i)).
    { intros [k v|k e] Hi; cbn [item_entry item_tree]; apply reads_entry; [apply reads_quoted|]. apply reads_string. now apply (rd_item cd k). }
    induction (cd_data cd) as [|i l IH]; [constructor|]. cbn [filter]. rewrite special_known. assert (Hl := IH (fun j Hj => H j (or_intror Hj))).
    destruct (negb (known_rl_attr i)); [|exact Hl]. cbn [map]. constructor; [apply H; now left|exact Hl].
  Qed.
  Lemma rd_block cd : In cd cds -> match entry_list cd with
    | Some s => ordinary_items cd <> [] /\ operand s (block_tree rd cd)
    | None => ordinary_items cd = [] end.
  Proof.
    intros Hc. pose proof (rd_entries cd Hc) as H. unfold entry_list, block_tree. destruct (map item_entry _) as [|e es] eqn:E.
    - inversion H as [Hn|]. destruct (ordinary_items cd); [reflexivity|discriminate].
    - destruct (ordinary_items cd) as [|i is_] eqn:Eo; [inversion H|]. split; [discriminate|]. rewrite <- Eo in *. apply list_operand in H. pose proof (rd_preds cd Hc) as Hp.
      destruct (cd_preds cd) as [|p ps]; [exact H|]. apply cond_operand; [now apply reads_join|exact H].
  Qed.
  Lemma rd_blocks : match filter (fun cd => match ordinary_items cd with [] => false | _ => true end) cds with
    | [] => descriptors_of cds = None
    | bs => exists s, descriptors_of cds = Some s /\ reads s (descriptor (sum (map (block_tree rd) bs))) end.
  Proof.
    assert (H : Forall2 operand (filter_map entry_list cds) (map (block_tree rd) (filter (fun cd => match ordinary_items cd with [] => false | _ => true end) cds))).
    { assert (Hb : forall cd, In cd cds -> match entry_list cd with Some s => ordinary_items cd <> [] /\ operand s (block_tree rd cd) | None => ordinary_items cd = [] end) by exact rd_block.
      clear Hrd. induction cds as [|cd l IH]; [constructor|]. cbn [filter_map filter]. pose proof (Hb cd (or_introl eq_refl)) as H. assert (Hl := IH (fun c Hc => Hb c (or_intror Hc))).
      destruct (entry_list cd) as [s|]; [destruct H as [H1 H2]; destruct (ordinary_items cd); [easy|]; cbn [map]; now constructor|rewrite H; exact Hl]. }
    unfold descriptors_of. destruct (filter _ cds) as [|c l]; [inversion H; reflexivity|]. destruct (filter_map entry_list cds) as [|s l'] eqn:E; [inversion H|].
    eexists. split; [reflexivity|]. apply reads_descriptor, reads_sum; [discriminate|exact H].
  Qed.
  Lemma rd_data : match d with [] => True | _ => reads (descriptor_cel (tx "[" ++ join (tx ", ") (map request_entry d) ++ tx "]"))
      (descriptor (TrList (map (fun r => entry (data_key (fst (fst r)) (snd (fst r))) (as_string (rd (snd r)))) d))) end.
  Proof.
    assert (H : forall r, In r d -> reads (request_entry r) (entry (data_key (fst (fst r)) (snd (fst r))) (as_string (rd (snd r))))).
    { intros [[dm f] v] Hr. unfold request_entry, data_key. cbn [fst snd].
      replace (if text_eqb dm [] || text_eqb dm (tx "metrics.labels") then f else dm ++ tx "." ++ f) with (match dm with [] => f | _ => if text_eqb dm (tx "metrics.labels") then f else dm ++ tx "." ++ f end) by (now destruct dm).
      apply reads_entry, reads_string, Hrd. apply in_or_app. right. apply in_or_app. right. apply in_map_iff. exists ((dm, f), v). auto. }
    destruct d as [|r l]; [exact Logic.I|]. apply reads_descriptor, operand_reads, list_operand. clear - H. induction (r :: l) as [|x m IH]; [constructor|]. cbn [map]. constructor; [apply H; now left|apply IH; intros y Hy; apply H; now right].
  Qed.
  Lemma rd_domain scope : reads (match find_known_attr cds (tx "ratelimit.domain") with Some x => x | None => quoted scope end) (domain_tree rd scope cds).
  Proof.
    rewrite known_named. unfold domain_tree. destruct (named (tx "ratelimit.domain") cds) as [i|] eqn:E; [|apply reads_quoted]. destruct (named_In _ _ _ E) as [Hi Hk].
    unfold known_attr_cel. rewrite Hk, text_eqb_refl. destruct i as [k v|k e]; cbn [text_eqb]; [apply reads_quoted|]. change (text_eqb (tx "ratelimit.domain") (tx "ratelimit.hits_addend")) with false.
    apply in_flat_map in Hi as (cd & Hc & Hi). now apply (rd_item cd k).
  Qed.
  Lemma rd_hits : reads (match find_known_attr cds (tx "ratelimit.hits_addend") with Some x => x | None => tx "1u" end) (hits_tree rd cds).
  Proof.
    rewrite known_named. unfold hits_tree. destruct (named (tx "ratelimit.hits_addend") cds) as [i|] eqn:E; [|exists [TkNum (tx "1u")]; split; [apply frag_tokens; reflexivity|exists 20; reflexivity]].
    destruct (named_In _ _ _ E) as [Hi Hk]. unfold known_attr_cel. rewrite Hk, text_eqb_refl. destruct i as [k v|k e]; apply reads_uint.
    - apply Hrd. apply in_or_app. right. apply in_or_app. left. apply in_flat_map. exists (DStatic k v). split; [exact Hi|]. cbn in Hk. rewrite Hk, text_eqb_refl. now left.
    - apply in_flat_map in Hi as (cd & Hc & Hi). now apply (rd_item cd k).
  Qed.
  Lemma rd_message scope : reads (rl_message scope cds d) (request_tree rd scope cds d).
  Proof.
    unfold rl_message, request_tree. destruct (rd_domain scope) as (tdom & D1 & D2). destruct rd_hits as (thit & H1 & H2).
    set (dom := match find_known_attr cds (tx "ratelimit.domain") with Some x => x | None => quoted scope end) in *.
    set (hit := match find_known_attr cds (tx "ratelimit.hits_addend") with Some x => x | None => tx "1u" end) in *.
    set (ds := (match descriptors_of cds with Some x => [x] | None => [] end) ++ (match d with [] => [] | _ => [descriptor_cel (tx "[" ++ join (tx ", ") (map request_entry d) ++ tx "]")] end)).
    match goal with |- reads _ (msg _ [_; _; (_, TrList ?l)]) => set (dt := l) end.
    assert (Hds : Forall2 reads ds dt).
    { apply Forall2_app.
      - pose proof rd_blocks as Hb. destruct (filter _ cds) as [|c l]; [rewrite Hb; constructor|]. destruct Hb as (s & -> & Hs). constructor; [exact Hs|constructor].
      - pose proof rd_data as Hb. destruct d; [constructor|]. constructor; [exact Hb|constructor]. }
    assert (Hdl : reads (match ds with [] => tx "[]" | _ => tx "[" ++ join (tx ", ") ds ++ tx "]" end) (TrList dt)).
    { pose proof (operand_reads _ _ (list_operand _ _ Hds)) as Hl. now destruct ds. }
    destruct Hdl as (tl & L1 & L2). set (dl := match ds with [] => tx "[]" | _ => tx "[" ++ join (tx ", ") ds ++ tx "]" end) in *. clearbody dl dt dom hit. unfold msg.
    match goal with |- reads ?s _ => replace s with (tx "envoy.service.ratelimit.v3.RateLimitRequest {" ++ tx "
    domain: " ++ dom ++ tx ",
    hits_addend: " ++ hit ++ tx ",
    descriptors: " ++ dl ++ tx "
}") by reflexivity end.
    eapply reads_msg; [reflexivity|reflexivity| |reflexivity|].
    - apply (T_frag (tx "
    domain: ") [TkId (tx "domain"); TkP PColon]); [reflexivity|]. apply T_glue; [exact D1|reflexivity|].
      apply (T_frag (tx ",
    hits_addend: ") [TkP PComma; TkId (tx "hits_addend"); TkP PColon]); [reflexivity|]. apply T_glue; [exact H1|reflexivity|].
      apply (T_frag (tx ",
    descriptors: ") [TkP PComma; TkId (tx "descriptors"); TkP PColon]); [reflexivity|]. apply (T_glue _ tl _ [TkP PRC]); [exact L1|reflexivity|apply frag_tokens; reflexivity].
    - cbn [app]. apply (d_field_more _ [] (tx "domain") tdom (domain_tree rd scope cds)); [exact D2|]. cbn [app].
      apply (d_field_more _ [(tx "domain", domain_tree rd scope cds)] (tx "hits_addend") thit (hits_tree rd cds)); [exact H2|].
      apply (d_field_last _ [(tx "domain", domain_tree rd scope cds); (tx "hits_addend", hits_tree rd cds)] (tx "descriptors") tl (TrList dt) []). exact L2.
  Qed.
End Request.

(** C88, proved when everything used as an expression is one (not ending in a comment) *)
Theorem C88_ratelimit_request_is_as_documented_partial rd scope cds d : (forall e, In e (expressions cds d) -> wf e (rd e)) ->
  parses (rl_message scope cds d) (request_tree rd scope cds d).
Proof. intros H. apply reads_parses, rd_message. intros e He. now apply reads_wf, H. Qed.

(** the data a rate-limit action can evaluate before the response: what does not read its body *)
Definition before_response (d d' : rdata) : Prop := exists f, d' = filter f d /\ forall r, f r = false <-> exists a b, snd r = a ++ tx "responseBodyJSON(" ++ b.
Lemma request_only_before d : before_response d (request_only d).
Proof.
  exists (fun r => negb (contains_sub (tx "responseBodyJSON(") (snd r))). split; [reflexivity|]. intros r. rewrite negb_false_iff. apply contains_sub_spec.
Qed.
(** C88 for both kinds of action: checking sends the data of the request phase, reporting sends everything *)
Theorem C88_ratelimit_actions_send_it_partial rd a d : (forall e, In e (expressions (la_cond a) d) -> wf e (rd e)) ->
  (exists p m rs d', translate_ratelimit a d = mkT p false true false (OpGrpc (tx "ratelimit_response") (la_service a) m rs) /\ before_response d d' /\ parses m (request_tree rd (la_scope a) (la_cond a) d')) /\
  (exists p m rs, translate_report a d = mkT p false false false (OpGrpc (tx "report_response") (la_service a) m rs) /\ parses m (request_tree rd (la_scope a) (la_cond a) d)).
Proof.
  intros H. split.
  - eexists _, _, _, (request_only d). split; [reflexivity|]. split; [apply request_only_before|]. apply C88_ratelimit_request_is_as_documented_partial. intros e He. apply H. unfold expressions in *.
    apply in_app_or in He as [He|He]; [now apply in_or_app; left|]. apply in_or_app. right. apply in_app_or in He as [He|He]; [now apply in_or_app; left|]. apply in_or_app. right.
    apply in_map_iff in He as (r & <- & Hr). apply in_map. now apply filter_In in Hr.
  - eexists _, _, _. split; [reflexivity|]. now apply C88_ratelimit_request_is_as_documented_partial.
Qed.
Definition ex_cds : list cond_data := [mkCd [tx "a ? b : c"; tx "d"] [DStatic (tx "k""") (tx "v"); DExpr (tx "e") (tx "f || g")]; mkCd [] [DStatic (tx "ratelimit.domain") (tx "dom"); DExpr (tx "h") (tx "i")]].
Definition ex_data : rdata := [((tx "metrics.labels", tx "user"), tx "j ? k : l"); ((tx "x", tx "y"), tx "responseBodyJSON('/z')")].
Example C88_ex : exists rd, (forall e, In e (expressions ex_cds ex_data) -> wf e (rd e)) /\
  request_tree rd (tx "scope") ex_cds ex_data =
    msg [tx "envoy"; tx "service"; tx "ratelimit"; tx "v3"; tx "RateLimitRequest"]
      [(tx "domain", TrStr (tx "dom")); (tx "hits_addend", TrNum (tx "1u"));
       (tx "descriptors", TrList [
          descriptor (TrBin PPlus (TrCond (TrAnd (TrCond (var "a") (var "b") (var "c")) (var "d")) (TrList [entry (tx "k""") (TrStr (tx "v")); entry (tx "e") (as_string (TrOr (var "f") (var "g")))]) (TrList []))
                                  (TrList [entry (tx "h") (as_string (var "i"))]));
          descriptor (TrList [entry (tx "user") (as_string (TrCond (var "j") (var "k") (var "l"))); entry (tx "x.y") (as_string (TrCall None (tx "responseBodyJSON") [TrStr (tx "/z")]))])])].
Proof.
  exists (fun e => match lex e with Some ts => match parse 40 GExpr ts with Some (t, _) => t | None => var "bad" end | None => var "bad" end). split; [|reflexivity].
  intros e He. repeat (destruct He as [<-|He]; [split; [eexists; exists 40; split; reflexivity|intros ts H; vm_compute in H; discriminate H]|]). destruct He.
Qed.
(** C88 fails for static numbers of hits: they are not escaped.  One that closes the call adds a
    field to the request: here the request has two lists of descriptors. *)
Theorem C88_static_hits_are_expressions_refuted : exists v fs, let cds := [mkCd [] [DStatic (tx "ratelimit.hits_addend") v]] in
  parses (rl_message (tx "scope") cds []) (msg [tx "envoy"; tx "service"; tx "ratelimit"; tx "v3"; tx "RateLimitRequest"] fs) /\
  map fst fs = [tx "domain"; tx "hits_addend"; tx "descriptors"; tx "domain"; tx "descriptors"].
Proof.
  exists (tx "1), descriptors: [], domain: string(request.host"),
    [(tx "domain", TrStr (tx "scope")); (tx "hits_addend", TrCall None (tx "uint") [TrNum (tx "1")]); (tx "descriptors", TrList []); (tx "domain", as_string (TrSel (var "request") (tx "host"))); (tx "descriptors", TrList [])].
  split; [eexists; exists 60; split; reflexivity|reflexivity].
Qed.
(** C88 fails for conditional domains and numbers of hits: the block's predicates do not matter to
    them.  Here the only block with a domain is that of requests with [p], yet the domain is
    always used. *)
Theorem C88_conditional_domain_is_unconditional_refuted : exists cds fs,
  parses (rl_message (tx "scope") cds []) (msg [tx "envoy"; tx "service"; tx "ratelimit"; tx "v3"; tx "RateLimitRequest"] fs) /\
  Forall (fun cd => In (DStatic (tx "ratelimit.domain") (tx "dom")) (cd_data cd) -> cd_preds cd = [tx "p"]) cds /\
  In (mkCd [tx "q"] [DStatic (tx "k") (tx "v")]) cds /\ In (tx "domain", TrStr (tx "dom")) fs.
Proof.
  exists [mkCd [tx "p"] [DStatic (tx "ratelimit.domain") (tx "dom")]; mkCd [tx "q"] [DStatic (tx "k") (tx "v")]],
    [(tx "domain", TrStr (tx "dom")); (tx "hits_addend", TrNum (tx "1u")); (tx "descriptors", TrList [descriptor (TrCond (var "q") (TrList [entry (tx "k") (TrStr (tx "v"))]) (TrList []))])].
  split; [eexists; exists 150; split; reflexivity|].
  split; [|split; [right; now left|now left]]. constructor; [reflexivity|constructor; [|constructor]]. intros [H|[]]. discriminate H.
Qed.

(** * C89: the authorization request *)
Definition fields_of (m : tree) (acc : list (text * tree)) (s : text) (fs : list (text * tree)) : Prop := exists ts, tokens s ts /\ derive (GFields m acc) ts (TrMsg m fs) [].
Lemma F_last m acc pre f e t close : frag pre [TkId f; TkP PColon] -> reads e t -> frag close [TkP PRC] -> sep_head close -> fields_of m acc (pre ++ e ++ close) (acc ++ [(f, t)]).
Proof.
  intros Hp (ts & H1 & H2) Hc Hs. exists ([TkId f; TkP PColon] ++ ts ++ [TkP PRC]). split; [|now apply d_field_last]. apply T_frag; [exact Hp|]. apply T_glue; [exact H1|exact Hs|now apply frag_tokens].
Qed.
Lemma F_more m acc pre f e t s fs : frag pre [TkId f; TkP PColon] -> reads e t -> fields_of m (acc ++ [(f, t)]) s fs -> fields_of m acc (pre ++ e ++ tx "," ++ s) fs.
Proof.
  intros Hp (ts & H1 & H2) (ks & K1 & K2). exists ([TkId f; TkP PColon] ++ ts ++ [TkP PComma] ++ ks). split; [|now apply (d_field_more _ _ _ _ t)].
  apply T_frag; [exact Hp|]. apply T_glue; [exact H1|reflexivity|]. apply T_frag; [reflexivity|exact K1].
Qed.
Lemma F_msg (s : text) (l : list text) open z fs : text_eqb s (tx "in") = false -> frag open (TkId s :: sel_toks l [TkP PLC]) -> fields_of (sel_tree (TrId s) l) [] z fs -> reads (open ++ z) (msg (s :: l) fs).
Proof. intros Hs Ho (ts & H1 & H2). now apply (reads_msg s l open ts fs z ts). Qed.
Definition pair_text (kv : text * text) : text := fst kv ++ tx ": " ++ snd kv.
Lemma reads_map l ts : l <> [] -> Forall2 (fun kv t => reads (fst kv) (fst t) /\ reads (snd kv) (snd t)) l ts -> reads (tx "{" ++ join (tx ", ") (map pair_text l) ++ tx "}") (TrMap ts).
Proof.
  intros Hne H. assert (Hx : forall acc, exists tk, tokens (join (tx ", ") (map pair_text l) ++ tx "}") tk /\ derive (GPairs acc) tk (TrMap (acc ++ ts)) []).
  { destruct H as [|[k v] [tk tv] l ts [(k1 & K1 & K2) (v1 & V1 & V2)] H]; [easy|]. clear Hne. cbn [fst snd] in *. revert k v tk tv k1 v1 K1 K2 V1 V2.
    induction H as [|[k' v'] [tk' tv'] l ts [(k1' & K1' & K2') (v1' & V1' & V2')] H IH]; intros k v tk tv k1 v1 K1 K2 V1 V2 acc.
    - exists (k1 ++ [TkP PColon] ++ v1 ++ [TkP PRC]). split; [|now apply d_pair_last]. unfold pair_text. cbn [map join fst snd]. rewrite <- !app_assoc.
      apply T_glue; [exact K1|reflexivity|]. apply T_frag; [reflexivity|]. apply T_glue; [exact V1|reflexivity|apply frag_tokens; reflexivity].
    - destruct (IH k' v' tk' tv' k1' v1' K1' K2' V1' V2' (acc ++ [(tk, tv)])) as (z & Z1 & Z2). exists (k1 ++ [TkP PColon] ++ v1 ++ [TkP PComma] ++ z). split.
      + change (join (tx ", ") (map pair_text ((k, v) :: (k', v') :: l))) with (pair_text (k, v) ++ tx ", " ++ join (tx ", ") (map pair_text ((k', v') :: l))). unfold pair_text at 1. cbn [fst snd]. rewrite <- !app_assoc.
        apply T_glue; [exact K1|reflexivity|]. apply T_frag; [reflexivity|]. apply T_glue; [exact V1|reflexivity|]. apply T_frag; [reflexivity|exact Z1].
      + apply (d_pair_more acc k1 tk v1 tv z); [exact K2|exact V2|]. now rewrite <- app_assoc in Z2. }
  destruct (Hx []) as (z & Z1 & Z2). exists ([TkP PLC] ++ z). split; [apply T_frag; [reflexivity|exact Z1]|]. apply d_top; [|exact Logic.I]. eapply d_member; [apply d_map; exact Z2|apply d_done].
Qed.

(** what the documentation says is sent *)
Section AuthSpec.
  Variable rd : text -> tree.
  Definition sel (a b : string) : tree := TrSel (TrId (tx a)) (tx b).
  Definition ac : list text := [tx "envoy"; tx "service"; tx "auth"; tx "v3"; tx "AttributeContext"].
  Definition corev3 : list text := [tx "envoy"; tx "config"; tx "core"; tx "v3"].
  Definition pb : list text := [tx "google"; tx "protobuf"].
  Definition peer (who : string) : tree :=
    msg (ac ++ [tx "Peer"]) [(tx "address", msg (corev3 ++ [tx "Address"]) [(tx "socket_address", msg (corev3 ++ [tx "SocketAddress"])
      [(tx "address", sel who "address"); (tx "port_value", TrCall None (tx "uint") [sel who "port"])])])].
  (** data that mentions the authorization result is sent as text, the rest is sent evaluated *)
  Definition datum_tree (e : text) : tree :=
    msg (pb ++ [tx "Value"])
      (if contains_sub (tx "auth.") e
       then [(tx "struct_value", msg (pb ++ [tx "Struct"]) [(tx "fields", TrMap [(TrStr (tx "cel_expr"), msg (pb ++ [tx "Value"]) [(tx "string_value", TrStr e)])])])]
       else [(tx "string_value", as_string (rd e))]).
  Definition group_tree (g : text * list (text * text)) : tree * tree :=
    (TrStr (fst g), msg (pb ++ [tx "Struct"]) [(tx "fields", TrMap (map (fun fe => (TrStr (fst fe), datum_tree (snd fe))) (snd g)))]).
  Definition check_tree (scope : text) (gs : list (text * list (text * text))) : tree :=
    msg [tx "envoy"; tx "service"; tx "auth"; tx "v3"; tx "CheckRequest"] [(tx "attributes", msg ac
      [(tx "request", msg (ac ++ [tx "Request"]) [(tx "time", sel "request" "time"); (tx "http", msg (ac ++ [tx "HttpRequest"])
          [(tx "host", sel "request" "host"); (tx "method", sel "request" "method"); (tx "scheme", sel "request" "scheme"); (tx "path", sel "request" "path");
           (tx "protocol", sel "request" "protocol"); (tx "headers", sel "request" "headers")])]);
       (tx "destination", peer "destination"); (tx "source", peer "source");
       (tx "context_extensions", TrMap [(TrStr (tx "host"), TrStr scope)]);
       (tx "metadata_context", msg (corev3 ++ [tx "Metadata"]) (match gs with [] => [] | _ => [(tx "filter_metadata", TrMap (map group_tree gs))] end))])].
End AuthSpec.
(** the data by domain: every datum is in the group of its domain, once, in order *)
Definition domain_key (dm : text) : text := match dm with [] => tx "io.kuadrant" | _ => tx "io.kuadrant." ++ dm end.
Definition of_key (k : text) (d : rdata) : list (text * text) := map (fun r => (snd (fst r), snd r)) (filter (fun r => text_eqb (domain_key (fst (fst r))) k) d).
Record grouped (d : rdata) (gs : list (text * list (text * text))) : Prop := {
  gr_sorted : StronglySorted (fun a b => text_leb (fst a) (fst b) = true /\ fst a <> fst b) gs;
  gr_all : forall r, In r d -> In (domain_key (fst (fst r))) (map fst gs);
  gr_each : forall k l, In (k, l) gs -> l = of_key k d /\ l <> [] }.

Lemma of_key_snoc k d r : of_key k (d ++ [r]) = of_key k d ++ (if text_eqb (domain_key (fst (fst r))) k then [(snd (fst r), snd r)] else []).
Proof. unfold of_key. rewrite filter_app, map_app. cbn [filter]. now destruct (text_eqb _ k). Qed.
Lemma groups_fold d : NoDup (map fst (fold_left group_add d [])) /\ forall k, tget k (fold_left group_add d []) = match of_key k d with [] => None | l => Some l end.
Proof.
  induction d as [|r d [IH1 IH2]] using rev_ind; [split; [constructor|reflexivity]|]. rewrite fold_left_app. cbn [fold_left]. set (g := fold_left group_add d []) in *. clearbody g. destruct r as [[dm f] e]. cbn [group_add].
  change (md_key dm) with (domain_key dm). split; [now apply (NoDup_aset text_eqb text_eqb_eq)|]. intros k. rewrite of_key_snoc. cbn [fst snd]. destruct (text_eqb (domain_key dm) k) eqn:E.
  - apply text_eqb_eq in E. subst k. rewrite (aget_aset_same text_eqb text_eqb_eq), IH2. now destruct (of_key (domain_key dm) d).
  - rewrite (aget_aset_other text_eqb text_eqb_eq), app_nil_r; [apply IH2|]. intros H. subst k. now rewrite text_eqb_refl in E.
Qed.
Lemma ins_key_perm x l : Permutation (ins_key x l) (x :: l).
Proof. induction l as [|y l IH]; [reflexivity|]. cbn. destruct (text_leb (fst x) (fst y)); [reflexivity|]. rewrite IH. apply perm_swap. Qed.
Lemma sort_perm g : Permutation (sort_groups g) g.
Proof. induction g as [|x g IH]; [reflexivity|]. cbn. rewrite ins_key_perm. now constructor. Qed.
Lemma sort_sorted g : NoDup (map fst g) -> StronglySorted (fun a b => text_leb (fst a) (fst b) = true /\ fst a <> fst b) (sort_groups g).
Proof.
  induction g as [|x g IH]; [constructor|]. cbn [map sort_groups fold_right]. intros Hn. inversion Hn as [|? ? Hx Hn']; subst. specialize (IH Hn'). fold (sort_groups g).
  assert (Hx' : ~ In (fst x) (map fst (sort_groups g))) by (intros H; apply Hx; now rewrite (Permutation_map fst (sort_perm g)) in H). clear Hx Hn Hn'. induction IH as [|y l Hl IH Hy]; [constructor; constructor|].
  cbn [ins_key]. cbn [map In] in Hx'. destruct (text_leb (fst x) (fst y)) eqn:E.
  - constructor; [now constructor|]. constructor; [split; [exact E|intros H; apply Hx'; now left]|]. rewrite Forall_forall in *. intros z Hz. destruct (Hy z Hz) as [H1 H2].
    split; [now apply (P_Scope.leb_trans _ (fst y))|]. intros H. apply Hx'. right. rewrite H. now apply in_map.
  - constructor; [apply IH; intros H; apply Hx'; now right|]. rewrite Forall_forall in *. intros z Hz. apply (Permutation_in z (ins_key_perm x l)) in Hz as [<-|Hz]; [|now apply Hy].
    split; [now apply P_Scope.leb_total|]. intros H. apply Hx'. now left.
Qed.
Lemma groups_grouped d : grouped d (sort_groups (fold_left group_add d [])).
Proof.
  destruct (groups_fold d) as [Hn Hg]. constructor; [now apply sort_sorted| |].
  - intros r Hr. rewrite (Permutation_map fst (sort_perm _)). destruct (in_dec text_eq_dec (domain_key (fst (fst r))) (map fst (fold_left group_add d []))) as [H|H]; [exact H|exfalso].
    apply (aget_None text_eqb text_eqb_eq) in H. rewrite Hg in H. destruct (of_key (domain_key (fst (fst r))) d) eqn:E; [|discriminate H]. unfold of_key in E. apply map_eq_nil in E.
    assert (Hf : In r (filter (fun r0 => text_eqb (domain_key (fst (fst r0))) (domain_key (fst (fst r)))) d)) by (apply filter_In; split; [exact Hr|apply text_eqb_refl]). now rewrite E in Hf.
  - intros k l H. apply (Permutation_in _ (sort_perm _)) in H. apply P_Route.In_tget in H; [|exact Hn]. rewrite Hg in H. destruct (of_key k d) as [|x m]; [discriminate H|]. injection H as <-. easy.
Qed.

Section Check.
  Variables (rd : text -> tree) (d : rdata).
  Hypothesis Hrd : forall r, In r d -> contains_sub (tx "auth.") (snd r) = false -> reads (snd r) (rd (snd r)).
  Lemma rd_datum r : In r d -> reads (request_data_value (snd r)) (datum_tree rd (snd r)).
  Proof.
    intros Hr. unfold request_data_value, datum_tree. destruct (contains_sub (tx "auth.") (snd r)) eqn:E.
    - replace (tx "google.protobuf.Value{struct_value: google.protobuf.Struct{fields: {""cel_expr"": google.protobuf.Value{string_value: " ++ quoted (snd r) ++ tx "}}}}")
        with (tx "google.protobuf.Value{" ++ tx "struct_value: " ++ (tx "google.protobuf.Struct{" ++ tx "fields: " ++ (tx "{" ++ join (tx ", ") (map pair_text [(quoted (tx "cel_expr"), tx "google.protobuf.Value{" ++ tx "string_value: " ++ quoted (snd r) ++ tx "}")]) ++ tx "}") ++ tx "}") ++ tx "}").
      2:{ generalize (quoted (snd r)). intros q. cbn [map join pair_text]. unfold pair_text. cbn [fst snd]. rewrite <- !app_assoc. reflexivity. }
      apply F_msg; [reflexivity|reflexivity|]. apply (F_last _ []); [reflexivity| |reflexivity|reflexivity].
      apply F_msg; [reflexivity|reflexivity|]. apply (F_last _ []); [reflexivity| |reflexivity|reflexivity].
      apply reads_map; [discriminate|]. constructor; [|constructor]. split; [apply reads_quoted|]. cbn [fst snd].
      apply F_msg; [reflexivity|reflexivity|]. apply (F_last _ []); [reflexivity|apply reads_quoted|reflexivity|reflexivity].
    - replace (tx "google.protobuf.Value{string_value: string(" ++ snd r ++ tx ")}") with (tx "google.protobuf.Value{" ++ tx "string_value: " ++ (tx "string(" ++ snd r ++ tx ")") ++ tx "}") by (rewrite <- !app_assoc; reflexivity).
      apply F_msg; [reflexivity|reflexivity|]. apply (F_last _ []); [reflexivity|apply reads_string; now apply Hrd|reflexivity|reflexivity].
  Qed.
  Lemma rd_group g : (forall f e, In (f, e) (snd g) -> exists r, In r d /\ snd r = e) -> snd g <> [] -> exists v, md_group g = pair_text (quoted (fst g), v) /\ reads v (snd (group_tree rd g)).
  Proof.
    intros H Hne. exists (tx "google.protobuf.Struct{" ++ tx "fields: " ++ (tx "{" ++ join (tx ", ") (map pair_text (map (fun fe => (quoted (fst fe), request_data_value (snd fe))) (snd g))) ++ tx "}") ++ tx "}"). split.
    - unfold md_group, pair_text. cbn [fst snd]. rewrite map_map. cbn [fst snd]. rewrite <- !app_assoc. reflexivity.
    - cbn [group_tree snd]. apply F_msg; [reflexivity|reflexivity|]. apply (F_last _ []); [reflexivity| |reflexivity|reflexivity]. apply reads_map; [now destruct (snd g)|].
      clear Hne. induction (snd g) as [|[f e] l IH]; [constructor|]. cbn [map]. constructor; [|apply IH; intros f' e' Hi; apply (H f'); now right].
      cbn [fst snd]. split; [apply reads_quoted|]. destruct (H f e (or_introl eq_refl)) as (r & Hr & <-). now apply rd_datum.
  Qed.
  Lemma rd_metadata : exists gs, grouped d gs /\ reads (metadata_context d) (msg (corev3 ++ [tx "Metadata"]) (match gs with [] => [] | _ => [(tx "filter_metadata", TrMap (map (group_tree rd) gs))] end)).
  Proof.
    exists (sort_groups (fold_left group_add d [])). pose proof (groups_grouped d) as Hg. split; [exact Hg|]. unfold metadata_context. destruct d as [|r0 d0] eqn:Ed.
    - cbn. exists [TkId (tx "envoy"); TkP PDot; TkId (tx "config"); TkP PDot; TkId (tx "core"); TkP PDot; TkId (tx "v3"); TkP PDot; TkId (tx "Metadata"); TkP PLC; TkP PRC].
      split; [apply frag_tokens; reflexivity|exists 30; reflexivity].
    - rewrite <- Ed in *. set (gs := sort_groups (fold_left group_add d [])) in *. assert (Hne : gs <> []).
      { intros H. pose proof (gr_all _ _ Hg r0) as Hi. rewrite Ed in Hi. specialize (Hi (or_introl eq_refl)). now rewrite H in Hi. }
      assert (Hx : exists l, map md_group gs = map pair_text l /\ Forall2 (fun kv t => reads (fst kv) (fst t) /\ reads (snd kv) (snd t)) l (map (group_tree rd) gs)).
      { assert (Hall : forall g, In g gs -> exists v, md_group g = pair_text (quoted (fst g), v) /\ reads v (snd (group_tree rd g))).
        { intros [k l] Hi. destruct (gr_each _ _ Hg k l Hi) as [-> Hl]. apply rd_group; [|exact Hl]. cbn [snd]. intros f e Hfe. unfold of_key in Hfe. apply in_map_iff in Hfe as (r & He & Hr). injection He as <- <-. exists r. split; [now apply filter_In in Hr|reflexivity]. }
        clear - Hall. induction gs as [|g gs IH]; [exists []; split; [reflexivity|constructor]|]. destruct (IH (fun g' Hg' => Hall g' (or_intror Hg'))) as (l & L1 & L2). destruct (Hall g (or_introl eq_refl)) as (v & V1 & V2).
        exists ((quoted (fst g), v) :: l). cbn [map]. rewrite V1, L1. split; [reflexivity|]. constructor; [|exact L2]. split; [apply reads_quoted|exact V2]. }
      destruct Hx as (l & -> & L2). replace (match gs with [] => [] | _ => [(tx "filter_metadata", TrMap (map (group_tree rd) gs))] end) with [(tx "filter_metadata", TrMap (map (group_tree rd) gs))] by (now destruct gs).
      replace (tx "envoy.config.core.v3.Metadata{filter_metadata: {" ++ join (tx ", ") (map pair_text l) ++ tx "}}")
        with (tx "envoy.config.core.v3.Metadata{" ++ tx "filter_metadata: " ++ (tx "{" ++ join (tx ", ") (map pair_text l) ++ tx "}") ++ tx "}") by (rewrite <- !app_assoc; reflexivity).
      apply F_msg; [reflexivity|reflexivity|]. apply (F_last _ []); [reflexivity| |reflexivity|reflexivity]. apply reads_map; [|exact L2]. intros ->. inversion L2 as [Hn|]. destruct gs; [now apply Hne|discriminate].
  Qed.
End Check.

(** an expression without free text, read by computation *)
Ltac constant := match goal with |- reads ?s _ => let l := eval vm_compute in (lex s) in match l with Some ?ts => exists ts; split; [apply frag_tokens; reflexivity|exists 150; reflexivity] end end.
(** C89, proved when every datum that is evaluated is an expression (not ending in a comment) *)
Theorem C89_auth_request_is_as_documented_partial rd a d : (forall r, In r d -> contains_sub (tx "auth.") (snd r) = false -> wf (snd r) (rd (snd r))) ->
  exists p m rs d' gs, translate_auth a d = mkT p false true false (OpGrpc (tx "auth_response") (la_service a) m rs) /\ before_response d d' /\ grouped d' gs /\ parses m (check_tree rd (la_scope a) gs).
Proof.
  intros H. set (d' := request_only d). destruct (rd_metadata rd d') as (gs & Hg & Hm).
  { intros r Hr Ha. apply reads_wf, H; [now apply filter_In in Hr|exact Ha]. }
  eexists _, _, _, d', gs. split; [reflexivity|]. split; [apply request_only_before|]. split; [exact Hg|]. apply reads_parses. unfold auth_message, check_tree. fold d'.
  set (md := metadata_context d') in *. clearbody md. set (mt := msg (corev3 ++ [tx "Metadata"]) _) in *. clearbody mt. set (q := quoted (la_scope a)).
  assert (Hx : reads (tx "{" ++ join (tx ", ") (map pair_text [(quoted (tx "host"), q)]) ++ tx "}") (TrMap [(TrStr (tx "host"), TrStr (la_scope a))])).
  { apply reads_map; [discriminate|]. constructor; [|constructor]. split; apply reads_quoted. }
  assert (Ex : tx "{" ++ join (tx ", ") (map pair_text [(quoted (tx "host"), q)]) ++ tx "}" = tx "{""host"": " ++ q ++ tx "}") by (cbn [map join]; unfold pair_text; cbn [fst snd]; rewrite <- !app_assoc; reflexivity).
  rewrite Ex in Hx. clear Ex. set (cx := tx "{""host"": " ++ q ++ tx "}") in Hx.
  match goal with |- reads ?s _ => replace s with (tx "envoy.service.auth.v3.CheckRequest {" ++ tx "
  attributes: " ++ (tx "envoy.service.auth.v3.AttributeContext {" ++ tx "
    request: " ++ tx "envoy.service.auth.v3.AttributeContext.Request {
      time: request.time,
      http: envoy.service.auth.v3.AttributeContext.HttpRequest {
        host: request.host,
        method: request.method,
        scheme: request.scheme,
        path: request.path,
        protocol: request.protocol,
        headers: request.headers
      }
    }" ++ tx "," ++ tx "
    destination: " ++ tx "envoy.service.auth.v3.AttributeContext.Peer {
      address: envoy.config.core.v3.Address {
        socket_address: envoy.config.core.v3.SocketAddress {
          address: destination.address,
          port_value: uint(destination.port)
        }
      }
    }" ++ tx "," ++ tx "
    source: " ++ tx "envoy.service.auth.v3.AttributeContext.Peer {
      address: envoy.config.core.v3.Address {
        socket_address: envoy.config.core.v3.SocketAddress {
          address: source.address,
          port_value: uint(source.port)
        }
      }
    }" ++ tx "," ++ tx "
    context_extensions: " ++ cx ++ tx "," ++ tx "
    metadata_context: " ++ md ++ tx "
  }") ++ tx "
}") end.
  2:{ unfold cx. rewrite <- !app_assoc. reflexivity. }
  clearbody cx. apply F_msg; [reflexivity|reflexivity|]. apply (F_last _ []); [reflexivity| |reflexivity|reflexivity].
  apply F_msg; [reflexivity|reflexivity|]. eapply F_more; [reflexivity|constant|]. eapply F_more; [reflexivity|constant|]. eapply F_more; [reflexivity|constant|]. eapply F_more; [reflexivity|exact Hx|].
  eapply (F_last _ [_; _; _; _]); [reflexivity|exact Hm|reflexivity|reflexivity].
Qed.
Definition ex_auth : rdata := [((tx "metrics", tx "b"), tx "c ? d : e"); ((tx "", tx "who"), tx "auth.identity.user"); ((tx "metrics", tx "a"), tx "f"); ((tx "late", tx "x"), tx "responseBodyJSON('/z')")].
Example C89_ex : exists rd, (forall r, In r ex_auth -> contains_sub (tx "auth.") (snd r) = false -> wf (snd r) (rd (snd r))) /\
  exists gs, grouped (request_only ex_auth) gs /\ map (group_tree rd) gs =
    [(TrStr (tx "io.kuadrant"), msg (pb ++ [tx "Struct"]) [(tx "fields", TrMap [(TrStr (tx "who"), datum_tree rd (tx "auth.identity.user"))])]);
     (TrStr (tx "io.kuadrant.metrics"), msg (pb ++ [tx "Struct"]) [(tx "fields", TrMap
        [(TrStr (tx "b"), msg (pb ++ [tx "Value"]) [(tx "string_value", as_string (TrCond (var "c") (var "d") (var "e")))]);
         (TrStr (tx "a"), msg (pb ++ [tx "Value"]) [(tx "string_value", as_string (var "f"))])])])].
Proof.
  exists (fun e => match lex e with Some ts => match parse 40 GExpr ts with Some (t, _) => t | None => var "bad" end | None => var "bad" end). split.
  - intros e He _. repeat (destruct He as [<-|He]; [split; [eexists; exists 40; split; reflexivity|intros ts H; vm_compute in H; discriminate H]|]). destruct He.
  - eexists. split; [apply groups_grouped|reflexivity].
Qed.
(** C89 fails for what counts as mentioning the authorization result: the text is searched for
    "auth.".  A variable with another name that ends in "auth" is sent as text, and the
    authorization result in index notation is evaluated before it exists. *)
Theorem C89_mentioning_auth_is_textual_refuted : exists e1 e2 t2,
  parses e1 (TrSel (TrId (tx "oauth")) (tx "user")) /\ parses (request_data_value e1) (msg (pb ++ [tx "Value"]) [(tx "struct_value", msg (pb ++ [tx "Struct"]) [(tx "fields", TrMap [(TrStr (tx "cel_expr"), msg (pb ++ [tx "Value"]) [(tx "string_value", TrStr e1)])])])]) /\
  parses e2 (TrIdx (TrId (tx "auth")) t2) /\ parses (request_data_value e2) (msg (pb ++ [tx "Value"]) [(tx "string_value", as_string (TrIdx (TrId (tx "auth")) t2))]).
Proof.
  exists (tx "oauth.user"), (tx "auth['identity']"), (TrStr (tx "identity")). split; [parsed|]. split; [eexists; exists 90; split; reflexivity|]. split; [parsed|eexists; exists 90; split; reflexivity].
Qed.

Print Assumptions C88_ratelimit_request_is_as_documented_partial.
Print Assumptions C88_ratelimit_actions_send_it_partial.
Print Assumptions C88_static_hits_are_expressions_refuted.
Print Assumptions C88_conditional_domain_is_unconditional_refuted.
Print Assumptions C89_auth_request_is_as_documented_partial.
Print Assumptions C89_mentioning_auth_is_textual_refuted.
