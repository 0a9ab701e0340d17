(** Lemmas about the syntax of CEL. *)
From Coq Require Import String List NArith Bool Ascii Lia.
From Verif Require Import Base CelSyn Config Legacy.
Import ListNotations.
Open Scope list_scope.

(** * Lexing *)
Lemma lrun_app s a b : lrun s (a ++ b) = match lrun s a with
  | Some (ta, s') => match lrun s' b with Some (tb, s2) => Some (ta ++ tb, s2) | None => None end
  | None => None end.
Proof.
  revert s. induction a as [|x a IH]; intros s; cbn.
  - now destruct (lrun s b) as [[? ?]|].
  - destruct (lstep s x) as [[t s']|]; [|easy]. rewrite IH. destruct (lrun s' a) as [[ta s2]|]; [|easy]. destruct (lrun s2 b) as [[tb s3]|]; [|easy]. now rewrite app_assoc.
Qed.

(** characters that end any token before them *)
Definition sepb (a : ascii) : bool := is_blank a || match single a with Some _ => true | None => false end.
Lemma sepb_facts a : sepb a = true -> is_letter a = false /\ is_digit a = false /\ is_quote a = false /\ is_c 46 a = false /\ (is_c 101 a || is_c 69 a = false) /\
  (is_c 117 a || is_c 85 a = false) /\ is_c 120 a = false /\ digit_of 16 a = None /\ is_c 47 a = false /\ (forall c, double c a = None) /\ Ascii.eqb a "034"%char = false /\ Ascii.eqb a "039"%char = false.
Proof.
  assert (H : forall a, sepb a = true -> is_letter a = false /\ is_digit a = false /\ is_quote a = false /\ is_c 46 a = false /\ (is_c 101 a || is_c 69 a = false) /\
    (is_c 117 a || is_c 85 a = false) /\ is_c 120 a = false /\ digit_of 16 a = None /\ is_c 47 a = false /\ (Ascii.eqb "&"%char a || Ascii.eqb "|"%char a || Ascii.eqb "="%char a = false) /\ Ascii.eqb a "034"%char = false /\ Ascii.eqb a "039"%char = false).
  { intros [[] [] [] [] [] [] [] []]; vm_compute; intuition discriminate. }
  intros Hs. destruct (H a Hs) as (H1 & H2 & H3 & H4 & H5 & H6 & H7 & H8 & H9 & H10 & H11). repeat (split; [assumption|]). split; [|exact H11].
  intros c. apply orb_false_iff in H10 as [H10 E3]. apply orb_false_iff in H10 as [E1 E2].
  unfold double, find, fst, snd. rewrite E1, E2, E3, ?andb_false_r. reflexivity.
Qed.
(** the modes a lexer can reach only have the two quotes *)
Definition quote_ok (s : lst) : Prop :=
  match s with LQ1 m | LQ2 m | LStr m _ _ | LStrE m _ _ | LStrX m _ _ _ _ _ | LStrQ m _ _ => is_quote (sm_quote m) = true | _ => True end.
Lemma start_ok a t s : start a = Some (t, s) -> quote_ok s.
Proof.
  unfold start. destruct (is_blank a); [intros [= <- <-]; exact Logic.I|]. destruct (is_letter a); [intros [= <- <-]; exact Logic.I|]. destruct (is_digit a); [intros [= <- <-]; exact Logic.I|].
  destruct (is_quote a) eqn:Hq; [intros [= <- <-]; exact Hq|]. destruct (is_c 46 a); [intros [= <- <-]; exact Logic.I|]. destruct (opens a); [intros [= <- <-]; exact Logic.I|].
  destruct (single a); [intros [= <- <-]; exact Logic.I|discriminate].
Qed.
Lemma andthen_ok ts a t s : andthen ts a = Some (t, s) -> quote_ok s.
Proof. unfold andthen. destruct (start a) as [[t' s']|] eqn:E; [|discriminate]. intros [= <- <-]. exact (start_ok _ _ _ E). Qed.
Lemma inside_ok m tr acc a t s : is_quote (sm_quote m) = true -> inside m tr acc a = Some (t, s) -> quote_ok s.
Proof.
  intros Hm. unfold inside. destruct (_ && negb (sm_raw m)); [intros [= <- <-]; exact Hm|]. destruct (Ascii.eqb _ _); [destruct tr; intros [= <- <-]; [exact Hm|exact Logic.I]|].
  destruct (_ && _); [discriminate|]. intros [= <- <-]. exact Hm.
Qed.
Lemma prefix_ok acc a m : prefix acc a = Some m -> sm_quote m = a.
Proof.
  unfold prefix. intros H. repeat match goal with H : context [match ?x with _ => _ end] |- _ => destruct x; try discriminate end; injection H as <-; reflexivity.
Qed.
Lemma lstep_ok s a t s' : quote_ok s -> lstep s a = Some (t, s') -> quote_ok s'.
Proof.
  intros Hq. destruct s; cbn [lstep];
    repeat match goal with
    | |- context [if is_quote a then _ else _] => destruct (is_quote a) eqn:?
    | |- context [match prefix ?x ?y with _ => _ end] => let E := fresh in destruct (prefix x y) eqn:E; [apply prefix_ok in E|]
    | |- (if ?x then _ else _) = _ -> _ => destruct x
    | |- (match ?x with _ => _ end) = _ -> _ => match x with start _ => fail 1 | andthen _ _ => fail 1 | inside _ _ _ _ => fail 1 | _ => destruct x end
    end; try discriminate; intros HH;
    first [exact (start_ok _ _ _ HH) | exact (andthen_ok _ _ _ _ HH) | exact (inside_ok _ _ _ _ _ _ Hq HH) | (injection HH as <- <-; first [exact Logic.I | exact Hq | (cbn; congruence)])].
Qed.
Lemma lrun_ok l : forall s t s', quote_ok s -> lrun s l = Some (t, s') -> quote_ok s'.
Proof.
  induction l as [|a l IH]; intros s t s' Hq; cbn; [intros [= <- <-]; exact Hq|]. destruct (lstep s a) as [[t1 s1]|] eqn:E; [|discriminate].
  destruct (lrun s1 l) as [[t2 s2]|] eqn:E2; [|discriminate]. intros [= <- <-]. exact (IH _ _ _ (lstep_ok _ _ _ _ Hq E) E2).
Qed.
Lemma glue_step s a t : quote_ok s -> lend s = Some t -> s <> LCom -> sepb a = true -> lstep s a = andthen t a.
Proof.
  intros Hq He Hc Ha. destruct (sepb_facts a Ha) as (H1 & H2 & H3 & H4 & H5 & H6 & H7 & H8 & H9 & H10 & H11 & H12).
  destruct s; cbn [lend] in He; try discriminate; try (injection He as <-); cbn [lstep]; try easy.
  - unfold andthen. destruct (start a) as [[? ?]|]; reflexivity.
  - rewrite H1, H2, H3. reflexivity.
  - rewrite H2, H4, H5, H6, H7. reflexivity.
  - rewrite H8, H6. reflexivity.
  - rewrite H2. reflexivity.
  - rewrite H2, H5. reflexivity.
  - rewrite H2. reflexivity.
  - rewrite H2. reflexivity.
  - rewrite H9, andb_false_r, H10. destruct (alone a0); [|discriminate]. injection He as <-. reflexivity.
  - destruct (Ascii.eqb a (sm_quote m)) eqn:E; [|reflexivity]. apply Ascii.eqb_eq in E. subst a. cbn in Hq. congruence.
Qed.

(** [tokens s ts]: [s] is the text of the tokens [ts], and does not end in a comment *)
Definition tokens (s : text) (ts : list token) : Prop :=
  exists t0 st t, lrun LS s = Some (t0, st) /\ lend st = Some t /\ st <> LCom /\ ts = t0 ++ t.
Definition frag (s : text) (ts : list token) : Prop := lrun LS s = Some (ts, LS).
Lemma tokens_lex s ts : tokens s ts -> lex s = Some ts.
Proof. intros (t0 & st & t & H1 & H2 & _ & ->). unfold lex. now rewrite H1, H2. Qed.
Lemma frag_tokens s ts : frag s ts -> tokens s ts.
Proof. intros H. exists ts, LS, []. repeat split; try easy. now rewrite app_nil_r. Qed.
Lemma T_frag f tf z tz : frag f tf -> tokens z tz -> tokens (f ++ z) (tf ++ tz).
Proof. intros Hf (t0 & st & t & H1 & H2 & H3 & ->). exists (tf ++ t0), st, t. unfold frag in Hf. rewrite lrun_app, Hf, H1. repeat split; auto. apply app_assoc. Qed.
Definition sep_head (z : text) : Prop := match z with [] => True | a :: _ => sepb a = true end.
Lemma T_glue p tp z tz : tokens p tp -> sep_head z -> tokens z tz -> tokens (p ++ z) (tp ++ tz).
Proof.
  intros (p0 & ps & pt & P1 & P2 & P3 & ->) Hz (t0 & st & t & H1 & H2 & H3 & ->). assert (Hq : quote_ok ps) by exact (lrun_ok p LS p0 ps Logic.I P1).
  destruct z as [|a z].
  - injection H1 as <- <-. injection H2 as <-. exists p0, ps, pt. rewrite !app_nil_r. auto.
  - cbn in Hz. exists ((p0 ++ pt) ++ t0), st, t. rewrite lrun_app, P1. cbn [lrun]. rewrite (glue_step ps a pt Hq P2 P3 Hz). cbn [lrun lstep] in H1. unfold andthen.
    destruct (start a) as [[ta sa]|]; [|discriminate]. destruct (lrun sa z) as [[tb sb]|]; [|discriminate]. injection H1 as <- <-.
    rewrite <- !app_assoc. repeat split; auto.
Qed.
Lemma F_glue p tp z tz : tokens p tp -> sep_head z -> z <> [] -> frag z tz -> frag (p ++ z) (tp ++ tz).
Proof.
  intros (p0 & ps & pt & P1 & P2 & P3 & ->) Hz Hn Hf. assert (Hq : quote_ok ps) by exact (lrun_ok p LS p0 ps Logic.I P1).
  destruct z as [|a z]; [easy|]. cbn in Hz. unfold frag in *. rewrite lrun_app, P1. cbn [lrun]. rewrite (glue_step ps a pt Hq P2 P3 Hz). cbn [lrun lstep] in Hf. unfold andthen.
  destruct (start a) as [[ta sa]|]; [|discriminate]. destruct (lrun sa z) as [[tb sb]|]; [|discriminate]. injection Hf as <- ->. now rewrite !app_assoc.
Qed.
Lemma F_app f tf z tz : frag f tf -> frag z tz -> frag (f ++ z) (tf ++ tz).
Proof. unfold frag. intros H1 H2. now rewrite lrun_app, H1, H2. Qed.

(** * Escaping *)
Lemma escape_app a b : escape_cel (a ++ b) = escape_cel a ++ escape_cel b.
Proof. unfold escape_cel, repl. now rewrite !flat_map_app. Qed.
Lemma escape_one m acc a : sm_raw m = false -> sm_quote m = DQ -> lrun (LStr m false acc) (escape_cel [a]) = Some ([], LStr m false (acc ++ [a])).
Proof. destruct m as [r b q]. cbn. intros -> ->. destruct a as [[] [] [] [] [] [] [] []]; reflexivity. Qed.
Lemma escape_first m a : sm_raw m = false -> sm_quote m = DQ -> lrun (LQ1 m) (escape_cel [a]) = Some ([], LStr m false [a]).
Proof. destruct m as [r b q]. cbn. intros -> ->. destruct a as [[] [] [] [] [] [] [] []]; reflexivity. Qed.
Lemma escape_all m s : sm_raw m = false -> sm_quote m = DQ -> forall acc, lrun (LStr m false acc) (escape_cel s) = Some ([], LStr m false (acc ++ s)).
Proof.
  intros Hr Hq. induction s as [|a s IH]; intros acc; [now rewrite app_nil_r|]. change (a :: s) with ([a] ++ s) at 1. rewrite escape_app, lrun_app, escape_one, IH by assumption. cbn. now rewrite <- app_assoc.
Qed.
Lemma quoted_run s : s <> [] -> frag (quoted s) [TkStr s].
Proof.
  intros Hs. destruct s as [|a s]; [easy|]. unfold frag, quoted. cbn [lrun lstep]. change (start DQ) with (Some (@nil token, LQ1 (mkSm false false DQ))).
  change (a :: s) with ([a] ++ s) at 1. rewrite escape_app, !lrun_app, escape_first, escape_all by reflexivity. reflexivity.
Qed.
Lemma quoted_tokens s : tokens (quoted s) [TkStr s].
Proof.
  destruct s as [|a s]; [|apply frag_tokens, quoted_run; discriminate]. exists [], (LQ2 (mkSm false false DQ)), [TkStr []]. repeat split; discriminate.
Qed.

(** * Parsing *)
(** tokens that could continue what was parsed *)
Definition post (t : token) : bool := match t with TkP (PDot | PLB | PLC | PLP) => true | _ => false end.
Definition isop (k : level) (t : token) : bool := match binop k t with Some _ => true | None => false end.
Definition contk (k : level) (t : token) : bool :=
  post t || match k with
            | VOr => isop VOr t || isop VAnd t || isop VRel t || isop VAdd t || isop VMul t
            | VAnd => isop VAnd t || isop VRel t || isop VAdd t || isop VMul t
            | VRel => isop VRel t || isop VAdd t || isop VMul t
            | VAdd => isop VAdd t || isop VMul t
            | VMul => isop VMul t
            end.
Definition cont (g : goal) (t : token) : bool :=
  match g with
  | GExpr => contk VOr t || match t with TkP PQ => true | _ => false end
  | GBin k | GLoop k _ => contk k t
  | GArgs _ _ | GPairs _ | GFields _ _ => false
  | _ => post t
  end.
Definition stops (g : goal) (z : list token) : Prop := match z with [] => True | t :: _ => cont g t = false end.
Lemma stops_below k z : stops (GBin k) z -> stops (below k) z.
Proof. destruct z as [|t z]; [easy|]. cbn. unfold contk. destruct k; cbn; rewrite ?orb_false_iff; intuition; unfold contk; rewrite ?orb_false_iff; intuition. Qed.
Lemma stops_expr z : stops GExpr z -> stops (GBin VOr) z /\ match z with TkP PQ :: _ => False | _ => True end.
Proof. destruct z as [|t z]; [easy|]. cbn [stops cont]. rewrite orb_false_iff. intros [H1 H2]. split; [exact H1|]. destruct t as [| | | |[]]; easy. Qed.
Lemma stops_loop k z : stops (GBin k) z -> match z with [] => True | t :: _ => binop k t = None end.
Proof. destruct z as [|t z]; [easy|]. cbn. unfold contk, isop. destruct k; destruct (binop _ t) eqn:E; try easy; rewrite ?orb_true_r; discriminate. Qed.
Lemma stops_post z : match z with [] => True | t :: _ => post t = false end -> forall t n, parse (S n) (GPost t) z = Some (t, z).
Proof. destruct z as [|x z]; intros H t n; cbn; [easy|]. destruct x as [| | | |[]]; try easy; discriminate H. Qed.

Section Ext.
  Variable z : list token.
  Definition extends (n : nat) : Prop := forall m g ts t r, parse n g ts = Some (t, r) -> n <= m -> (r = [] -> stops g z) -> parse m g (ts ++ z) = Some (t, r ++ z).
  Lemma parse_ext n : extends n.
  Proof.
    induction n as [|n IH]; intros m g ts t r H Hle Hz; [discriminate|]. destruct m as [|m]; [lia|]. assert (Hm : n <= m) by lia.
    destruct g as [|k|k a| | | | |t0| |c acc|acc|t0 acc]; cbn [parse] in H |- *.
    - (* GExpr *)
      destruct (parse n (GBin VOr) ts) as [[c r1]|] eqn:E1; [|discriminate].
      assert (Hr1 : r1 = [] -> stops (GBin VOr) z) by (intros ->; apply stops_expr, Hz; congruence).
      rewrite (IH m _ _ _ _ E1 Hm Hr1).
      destruct r1 as [|x r1]; [injection H as <- <-; cbn [app]; destruct (stops_expr z (Hz eq_refl)) as [_ Hq]; destruct z as [|[| | | |[]] z']; easy|].
      cbn [app]. destruct x as [| | | |[]]; try (injection H as <- <-; reflexivity).
      destruct (parse n (GBin VOr) r1) as [[a [|y r2]]|] eqn:E2; [discriminate| |discriminate]. rewrite (IH m _ _ _ _ E2 Hm) by discriminate. cbn [app].
      destruct y as [| | | |[]]; try discriminate. destruct (parse n GExpr r2) as [[b' r3]|] eqn:E3; [|discriminate]. injection H as <- <-.
      now rewrite (IH m _ _ _ _ E3 Hm).
    - (* GBin *)
      destruct (parse n (below k) ts) as [[a r1]|] eqn:E1; [|discriminate].
      assert (Hr1 : r1 = [] -> stops (below k) z). { intros ->. apply stops_below, Hz. destruct n; [discriminate|]. cbn in H. congruence. }
      rewrite (IH m _ _ _ _ E1 Hm Hr1). now apply (IH m).
    - (* GLoop *)
      destruct ts as [|x ts]; cbn [app].
      + injection H as <- <-. cbn [app]. pose proof (stops_loop k z (Hz eq_refl)) as Hl. destruct z as [|y z']; [easy|]. now rewrite Hl.
      + destruct (binop k x) as [f|]; [|injection H as <- <-; reflexivity].
        destruct (parse n (below k) ts) as [[b' r1]|] eqn:E1; [|discriminate].
        assert (Hr1 : r1 = [] -> stops (below k) z). { intros ->. apply stops_below, Hz. destruct n; [discriminate|]. cbn in H. congruence. }
        rewrite (IH m _ _ _ _ E1 Hm Hr1). now apply (IH m).
    - (* GUnary *)
      destruct ts as [|x ts]; [destruct n as [|[|]]; discriminate H|].
      cbn [app]. change (x :: ts ++ z) with ((x :: ts) ++ z). destruct x as [| | | |[]]; apply (IH m _ _ _ _ H Hm); exact Hz.
    - (* GNot *)
      destruct ts as [|x ts]; [destruct n as [|[|]]; discriminate H|].
      cbn [app]. change (x :: ts ++ z) with ((x :: ts) ++ z). destruct x as [| | | |[]]; try (apply (IH m _ _ _ _ H Hm); exact Hz).
      destruct (parse n GNot ts) as [[b' r1]|] eqn:E1; [|discriminate]. injection H as <- <-. now rewrite (IH m _ _ _ _ E1 Hm).
    - (* GNeg *)
      destruct ts as [|x ts]; [destruct n as [|[|]]; discriminate H|].
      cbn [app]. change (x :: ts ++ z) with ((x :: ts) ++ z). destruct x as [| | | |[]]; try (apply (IH m _ _ _ _ H Hm); exact Hz).
      destruct (parse n GNeg ts) as [[b' r1]|] eqn:E1; [|discriminate]. injection H as <- <-. now rewrite (IH m _ _ _ _ E1 Hm).
    - (* GMember *)
      destruct (parse n GPrim ts) as [[a r1]|] eqn:E1; [|discriminate].
      assert (Hr1 : r1 = [] -> stops GPrim z). { intros ->. apply Hz. destruct n; [discriminate|]. cbn in H. congruence. }
      rewrite (IH m _ _ _ _ E1 Hm Hr1). now apply (IH m).
    - (* GPost *)
      destruct ts as [|x ts].
      { injection H as <- <-. cbn [app]. specialize (Hz eq_refl). destruct z as [|[| | | |[]] z']; try easy; discriminate Hz. }
      cbn [app]. destruct x as [| | | |[]]; try (injection H as <- <-; reflexivity).
      + destruct (parse n GExpr ts) as [[i [|y r2]]|] eqn:E1; [discriminate| |discriminate]. rewrite (IH m _ _ _ _ E1 Hm) by discriminate. cbn [app].
        destruct y as [| | | |[]]; try discriminate. now apply (IH m).
      + destruct (dotted t0); [|discriminate]. destruct (parse n (GFields t0 []) ts) as [[a r1]|] eqn:E1; [|discriminate].
        rewrite (IH m _ _ _ _ E1 Hm); [now apply (IH m)|]. intros _. now destruct z.
      + destruct ts as [|y ts]; [discriminate|]. cbn [app]. destruct y as [f| | | |]; try discriminate.
        destruct ts as [|y ts].
        * cbn [app]. assert (Hp : parse m (GPost (TrSel t0 f)) ([] ++ z) = Some (t, r ++ z)) by now apply (IH m).
          assert (r = []) as -> by (destruct n; [discriminate|]; cbn in H; congruence). specialize (Hz eq_refl).
          cbn [app] in Hp. destruct z as [|[| | | |[]] z']; try exact Hp; discriminate Hz.
        * cbn [app]. destruct y as [| | | |[]];
            try (change (TkId s :: ts ++ z) with ((TkId s :: ts) ++ z)); try (change (TkNum s :: ts ++ z) with ((TkNum s :: ts) ++ z));
            try (change (TkStr s :: ts ++ z) with ((TkStr s :: ts) ++ z)); try (change (TkBytes s :: ts ++ z) with ((TkBytes s :: ts) ++ z));
            try (match goal with |- context [TkP ?p :: ts ++ z] => change (TkP p :: ts ++ z) with ((TkP p :: ts) ++ z) end); try (apply (IH m _ _ _ _ H Hm); exact Hz).
          destruct (parse n (GArgs PRP []) ts) as [[a r1]|] eqn:E1; [|discriminate]. rewrite (IH m _ _ _ _ E1 Hm) by (intros _; now destruct z).
          destruct a; try discriminate. now apply (IH m).
    - (* GPrim *)
      destruct ts as [|x ts]; [discriminate|]. cbn [app]. destruct x as [s|s|s|s|[]]; try discriminate; try (injection H as <- <-; reflexivity).
      + destruct (text_eqb s (tx "in")); [discriminate|]. destruct ts as [|y ts].
        * injection H as <- <-. cbn [app]. specialize (Hz eq_refl). destruct z as [|[| | | |[]] z']; try easy; discriminate Hz.
        * cbn [app]. destruct y as [| | | |[]]; try (injection H as <- <-; reflexivity).
          destruct (parse n (GArgs PRP []) ts) as [[a r1]|] eqn:E1; [|discriminate]. rewrite (IH m _ _ _ _ E1 Hm) by (intros _; now destruct z).
          destruct a; try discriminate. now injection H as <- <-.
      + destruct (parse n GExpr ts) as [[i [|y r2]]|] eqn:E1; [discriminate| |discriminate]. rewrite (IH m _ _ _ _ E1 Hm) by discriminate. cbn [app].
        destruct y as [| | | |[]]; try discriminate. now injection H as <- <-.
      + apply (IH m _ _ _ _ H Hm). intros _. now destruct z.
      + apply (IH m _ _ _ _ H Hm). intros _. now destruct z.
      + destruct ts as [|y ts]; [discriminate|]. cbn [app]. destruct y as [f| | | |]; try discriminate. destruct (text_eqb f (tx "in")); [discriminate|]. now injection H as <- <-.
    - (* GArgs *)
      destruct ts as [|x ts]; [discriminate|]. cbn [app]. destruct (closes c x && _); [now injection H as <- <-|]. change (x :: ts ++ z) with ((x :: ts) ++ z).
      destruct (parse n GExpr (x :: ts)) as [[e [|y r2]]|] eqn:E1; [discriminate| |discriminate]. rewrite (IH m _ _ _ _ E1 Hm) by discriminate. cbn [app].
      destruct y as [| | | |[]]; try (destruct (closes c _); [now injection H as <- <-|discriminate]). now apply (IH m).
    - (* GPairs *)
      assert (Hcase : (exists l, ts = TkP PRC :: l /\ Some (TrMap acc, l) = Some (t, r)) \/ (match ts ++ z with TkP PRC :: l => Some (TrMap acc, l) | _ => match parse m GExpr (ts ++ z) with
        | Some (k, TkP PColon :: r) => match parse m GExpr r with Some (v, TkP PComma :: r2) => parse m (GPairs (acc ++ [(k, v)])) r2 | Some (v, TkP PRC :: r2) => Some (TrMap (acc ++ [(k, v)]), r2) | _ => None end | _ => None end end
        = match parse m GExpr (ts ++ z) with | Some (k, TkP PColon :: r) => match parse m GExpr r with Some (v, TkP PComma :: r2) => parse m (GPairs (acc ++ [(k, v)])) r2 | Some (v, TkP PRC :: r2) => Some (TrMap (acc ++ [(k, v)]), r2) | _ => None end | _ => None end
        /\ match parse n GExpr ts with | Some (k, TkP PColon :: r) => match parse n GExpr r with Some (v, TkP PComma :: r2) => parse n (GPairs (acc ++ [(k, v)])) r2 | Some (v, TkP PRC :: r2) => Some (TrMap (acc ++ [(k, v)]), r2) | _ => None end | _ => None end = Some (t, r))).
      { destruct ts as [|x ts]; [right; destruct n as [|[|[|[|[|[|[|[|[|]]]]]]]]]; discriminate H|]. destruct x as [| | | |[]]; try (right; split; [reflexivity|exact H]). left. eauto. }
      destruct Hcase as [(l & -> & Hl)|[-> Hl]]; [injection Hl as <- <-; reflexivity|]. clear H.
      destruct (parse n GExpr ts) as [[k [|y r1]]|] eqn:E1; [discriminate| |discriminate]. rewrite (IH m _ _ _ _ E1 Hm) by discriminate. cbn [app].
      destruct y as [| | | |[]]; try discriminate.
      destruct (parse n GExpr r1) as [[v [|y r2]]|] eqn:E2; [discriminate| |discriminate]. rewrite (IH m _ _ _ _ E2 Hm) by discriminate. cbn [app].
      destruct y as [| | | |[]]; try discriminate; [now injection Hl as <- <-|now apply (IH m)].
    - (* GFields *)
      destruct ts as [|x ts]; [discriminate|]. cbn [app]. destruct x as [f| | | |[]]; try discriminate; [|now injection H as <- <-].
      destruct ts as [|y ts]; [discriminate|]. cbn [app]. destruct y as [| | | |[]]; try discriminate.
      destruct (parse n GExpr ts) as [[v [|y r2]]|] eqn:E2; [discriminate| |discriminate]. rewrite (IH m _ _ _ _ E2 Hm) by discriminate. cbn [app].
      destruct y as [| | | |[]]; try discriminate; [now injection H as <- <-|now apply (IH m)].
  Qed.
End Ext.
Lemma parse_mono n m g ts x : parse n g ts = Some x -> n <= m -> parse m g ts = Some x.
Proof. destruct x as [t r]. intros H Hle. rewrite <- (app_nil_r ts), <- (app_nil_r r). apply (parse_ext [] n m g ts t r H Hle). easy. Qed.

Lemma parse_det n m g ts x y : parse n g ts = Some x -> parse m g ts = Some y -> x = y.
Proof. intros H1 H2. apply (parse_mono n (n + m)) in H1; [|lia]. apply (parse_mono m (n + m)) in H2; [|lia]. congruence. Qed.

(** [derive g ts t r]: [g] reads the tokens [ts] up to [r] as [t] *)
Definition derive (g : goal) (ts : list token) (t : tree) (r : list token) : Prop := exists n, parse n g ts = Some (t, r).
Lemma derive_det g ts t t' r r' : derive g ts t r -> derive g ts t' r' -> t = t' /\ r = r'.
Proof. intros [n H1] [m H2]. pose proof (parse_det _ _ _ _ _ _ H1 H2) as H. injection H as <- <-. auto. Qed.
Lemma derive_ext g ts t r z : derive g ts t r -> (r = [] -> stops g z) -> derive g (ts ++ z) t (r ++ z).
Proof. intros [n H] Hz. exists n. now apply (parse_ext z n n). Qed.

(** derivation rules; the fuel is the sum of what the premises need *)
Ltac fuel H := match type of H with parse ?n _ _ = _ => first [rewrite (parse_mono n _ _ _ _ H) by lia | idtac] end.
Lemma d_below k ts a r t r' : derive (below k) ts a r -> derive (GLoop k a) r t r' -> derive (GBin k) ts t r'.
Proof. intros [n H1] [m H2]. exists (S (n + m)). cbn [parse]. rewrite (parse_mono n _ _ _ _ H1) by lia. now rewrite (parse_mono m _ _ _ _ H2) by lia. Qed.
Lemma d_stop k a z : stops (GBin k) z -> derive (GLoop k a) z a z.
Proof. intros Hz. exists 1. cbn. pose proof (stops_loop k z Hz) as Hl. destruct z as [|t z]; [easy|]. now rewrite Hl. Qed.
Lemma d_op k a x f ts b r t r' : binop k x = Some f -> derive (below k) ts b r -> derive (GLoop k (f a b)) r t r' -> derive (GLoop k a) (x :: ts) t r'.
Proof. intros Hx [n H1] [m H2]. exists (S (n + m)). cbn [parse]. rewrite Hx, (parse_mono n _ _ _ _ H1) by lia. now rewrite (parse_mono m _ _ _ _ H2) by lia. Qed.
Lemma d_expr ts t r : derive (GBin VOr) ts t r -> match r with TkP PQ :: _ => False | _ => True end -> derive GExpr ts t r.
Proof. intros [n H] Hr. exists (S n). cbn [parse]. rewrite H. destruct r as [|[| | | |[]] r]; easy. Qed.
Lemma d_cond ts c r a r2 b r3 : derive (GBin VOr) ts c (TkP PQ :: r) -> derive (GBin VOr) r a (TkP PColon :: r2) -> derive GExpr r2 b r3 -> derive GExpr ts (TrCond c a b) r3.
Proof. intros [n H1] [m H2] [k H3]. exists (S (n + m + k)). cbn [parse]. rewrite (parse_mono n _ _ _ _ H1), (parse_mono m _ _ _ _ H2), (parse_mono k _ _ _ _ H3) by lia. reflexivity. Qed.
Lemma d_unary ts t r : derive GMember ts t r -> match ts with TkP (PNot | PMinus) :: _ => False | _ => True end -> derive GUnary ts t r.
Proof. intros [n H] Ht. exists (S n). cbn [parse]. destruct ts as [|[| | | |[]] ts]; easy. Qed.
Lemma d_member ts t r t' r' : derive GPrim ts t r -> derive (GPost t) r t' r' -> derive GMember ts t' r'.
Proof. intros [n H1] [m H2]. exists (S (n + m)). cbn [parse]. rewrite (parse_mono n _ _ _ _ H1) by lia. now rewrite (parse_mono m _ _ _ _ H2) by lia. Qed.
Lemma d_post_stop t z : stops GMember z -> derive (GPost t) z t z.
Proof. intros Hz. exists 1. apply stops_post. now destruct z. Qed.
Lemma d_paren ts t z : derive GExpr ts t [] -> derive GPrim (TkP PLP :: ts ++ TkP PRP :: z) t z.
Proof. intros H. apply (derive_ext GExpr ts t [] (TkP PRP :: z)) in H; [|reflexivity]. destruct H as [n H]. exists (S n). cbn [parse]. now rewrite H. Qed.
Lemma stops_member k z : stops (GBin k) z -> stops GMember z.
Proof. destruct z as [|t z]; [easy|]. cbn. unfold contk. rewrite orb_false_iff. easy. Qed.
(** from a primary expression up to a level *)
Lemma d_up k ts t z : derive GMember ts t z -> match ts with TkP (PNot | PMinus) :: _ => False | _ => True end -> stops (GBin k) z -> derive (GBin k) ts t z.
Proof.
  intros H Ht. assert (Hu : derive GUnary ts t z) by now apply d_unary.
  assert (Hm : forall k, stops (GBin k) z -> derive (below k) ts t z -> derive (GBin k) ts t z) by (intros k' Hs Hb; apply (d_below k' ts t z); [exact Hb|now apply d_stop]).
  assert (H4 : stops (GBin VMul) z -> derive (GBin VMul) ts t z) by (intros; now apply Hm).
  assert (H3 : stops (GBin VAdd) z -> derive (GBin VAdd) ts t z) by (intros Hs; apply Hm; [exact Hs|]; now apply H4, (stops_below VAdd)).
  assert (H2 : stops (GBin VRel) z -> derive (GBin VRel) ts t z) by (intros Hs; apply Hm; [exact Hs|]; now apply H3, (stops_below VRel)).
  assert (H1 : stops (GBin VAnd) z -> derive (GBin VAnd) ts t z) by (intros Hs; apply Hm; [exact Hs|]; now apply H2, (stops_below VAnd)).
  assert (H0 : stops (GBin VOr) z -> derive (GBin VOr) ts t z) by (intros Hs; apply Hm; [exact Hs|]; now apply H1, (stops_below VOr)).
  destruct k; auto.
Qed.
Lemma d_paren_up k ts t z : derive GExpr ts t [] -> stops (GBin k) z -> derive (GBin k) (TkP PLP :: ts ++ TkP PRP :: z) t z.
Proof. intros H Hz. apply d_up; [|easy|exact Hz]. apply (d_member _ t z); [now apply d_paren|]. apply d_post_stop. now apply (stops_member k). Qed.

Lemma parses_spec s t : parses s t <-> exists ts, lex s = Some ts /\ derive GExpr ts t [].
Proof. split; [intros (ts & n & H1 & H2); exists ts; split; [exact H1|now exists n]|intros (ts & H1 & [n H2]); now exists ts, n]. Qed.
