(** C116, C117: what the replies of authorization and rate limit services lead to (legacy actions). *)
From Coq Require Import String List NArith ZArith Bool Lia Arith Ascii.
From Verif Require Import Base Value Headers AttrPath Ctx CelProps CelEval Sse Body ValueBytes Tasks Exec Config Legacy Blueprint Factory Filter
  P_Run P_Ids P_Plan P_Order P_Term P_Cfg P_Fail P_Verdict Demo DemoCfg
  Prop_Order Prop_Term Prop_Guard Prop_Wake Prop_Fail Prop_Know Prop_Eff Prop_Scope Prop_Reply Prop_Verdict.
From Verif Require CelSyn Prop_Export Prop_Writes.
Import CelSyn.
Import ListNotations.
Open Scope list_scope.

(** * Specifications *)
(** ** A fragment of CEL *)
(** whole numbers, with a final [u] for unsigned ones *)
Fixpoint digits (acc : N) (s : text) : option N :=
  match s with
  | [] => Some acc
  | a :: s' => let d := N_of_ascii a in if (48 <=? d)%N && (d <=? 57)%N then digits (acc * 10 + (d - 48)) s' else None
  end.
Definition number (s : text) : option value :=
  match rev s with
  | a :: r => if Ascii.eqb a "u" then option_map VUInt (digits 0 (rev r)) else option_map (fun n => VInt (Z.of_N n)) (digits 0 s)
  | [] => None
  end.
Definition map_all {A B} (f : A -> option B) : list A -> option (list B) :=
  fix go l := match l with [] => Some [] | a :: l' => match f a, go l' with Some b, Some m => Some (b :: m) | _, _ => None end end.
Fixpoint dotted_name (t : tree) : option text :=
  match t with TrId s => Some s | TrSel x f => option_map (fun s => s ++ dot :: f) (dotted_name x) | _ => None end.
(** from what was read to the tree the interpreter works on; other constructs are left out *)
Fixpoint ast_of (t : tree) : option ast :=
  match t with
  | TrId s => Some (if text_eqb s (tx "true") then ALit (VBool true) else if text_eqb s (tx "false") then ALit (VBool false) else AIdent s)
  | TrNum s => option_map ALit (number s)
  | TrStr s => Some (ALit (VString s))
  | TrSel x f => option_map (fun e => ASelect e f false) (ast_of x)
  | TrCall None f [x] =>
      if text_eqb f (tx "has") then match ast_of x with Some (ASelect e g false) => Some (ASelect e g true) | _ => None end
      else option_map (fun e => ACall None f [e]) (ast_of x)
  | TrCall (Some x) f [] => option_map (fun e => ACall (Some e) f []) (ast_of x)
  | TrNot x => option_map (fun e => ACall None (tx "!_") [e]) (ast_of x)
  | TrAnd a b => match ast_of a, ast_of b with Some x, Some y => Some (ACall None (tx "_&&_") [x; y]) | _, _ => None end
  | TrOr a b => match ast_of a, ast_of b with Some x, Some y => Some (ACall None (tx "_||_") [x; y]) | _, _ => None end
  | TrBin PEq a b => match ast_of a, ast_of b with Some x, Some y => Some (ACall None (tx "_==_") [x; y]) | _, _ => None end
  | TrBin PNe a b => match ast_of a, ast_of b with Some x, Some y => Some (ACall None (tx "_!=_") [x; y]) | _, _ => None end
  | TrBin PGt a b => match ast_of a, ast_of b with Some x, Some y => Some (ACall None (tx "_>_") [x; y]) | _, _ => None end
  | TrCond c a b => match ast_of c, ast_of a, ast_of b with Some x, Some y, Some z => Some (ACall None (tx "_?_:_") [x; y; z]) | _, _, _ => None end
  | TrMsg n fs => match dotted_name n, map_all (fun kv => option_map (pair (fst kv)) (ast_of (snd kv))) fs with Some s, Some l => Some (AStruct s l) | _, _ => None end
  | TrList l => option_map AList (map_all ast_of l)
  | _ => None
  end.
Definition read_cel (s : text) : option ast :=
  match lex s with
  | Some ts => match parse (200 + 20 * length ts) GExpr ts with Some (t, []) => ast_of t | _ => None end
  | None => None
  end.
(** The value of an expression; [Unknown]: not in this fragment. Selecting a field that is not there is an
    error, asking for it with [has] is not; [&&], [||] and [?:] only look at what they need, from the left. *)
Definition get (k : text) (l : list (text * value)) : option value := tget k l.
Inductive res := Val (v : value) | Fails | Unknown.
Definition bind (r : res) (f : value -> res) : res := match r with Val v => f v | _ => r end.
Definition member (f : text) (test : bool) (v : value) : res :=
  match v with
  | VStruct _ fs => match get f fs with
                    | Some w => Val (if test then VBool true else w)
                    | None => if test then Val (VBool false) else Fails
                    end
  | _ => Unknown
  end.
Definition on_bool (f : bool -> res) (v : value) : res := match v with VBool b => f b | _ => Unknown end.
Definition on_int (f : Z -> res) (v : value) : res := match v with VInt z => f z | _ => Unknown end.
Definition a_bool (v : value) : res := on_bool (fun b => Val (VBool b)) v.
Definition compare_ints (f : Z -> Z -> bool) (a b : res) : res := bind a (on_int (fun x => bind b (on_int (fun y => Val (VBool (f x y)))))).
Definition unary (f : text) (a : res) : res :=
  if text_eqb f (tx "!_") then bind a (on_bool (fun b => Val (VBool (negb b))))
  else if text_eqb f (tx "uint") then bind a (on_int (fun z => if (0 <=? z)%Z then Val (VUInt (Z.to_N z)) else Fails))
  else Unknown.
Definition binary (f : text) (a b : res) : res :=
  if text_eqb f (tx "_&&_") then bind a (on_bool (fun x => if x then bind b a_bool else Val (VBool false)))
  else if text_eqb f (tx "_||_") then bind a (on_bool (fun x => if x then Val (VBool true) else bind b a_bool))
  else if text_eqb f (tx "_==_") then compare_ints Z.eqb a b
  else if text_eqb f (tx "_!=_") then compare_ints (fun x y => negb (Z.eqb x y)) a b
  else if text_eqb f (tx "_>_") then compare_ints Z.gtb a b
  else Unknown.
Definition ternary (f : text) (a b c : res) : res :=
  if text_eqb f (tx "_?_:_") then bind a (on_bool (fun x => if x then b else c)) else Unknown.
Definition method (f : text) (a : res) : res :=
  if text_eqb f (tx "size") then bind a (fun v => match v with VList l => Val (VInt (Z.of_nat (length l))) | _ => Unknown end) else Unknown.
Fixpoint all_vals {A} (l : list (A * res)) : list (A * value) + res :=
  match l with
  | [] => inl []
  | (k, Val v) :: l' => match all_vals l' with inl m => inl ((k, v) :: m) | inr r => inr r end
  | (_, r) :: _ => inr r
  end.
Definition struct_of (ty : text) (l : list (text * res)) : res := match all_vals l with inl m => Val (VStruct ty m) | inr r => r end.
Definition list_of (l : list (unit * res)) : res := match all_vals l with inl m => Val (VList (map snd m)) | inr r => r end.
Fixpoint aeval (vs : list (text * value)) (e : ast) : res :=
  match e with
  | ALit v => Val v
  | AIdent n => match get n vs with Some v => Val v | None => Unknown end
  | ASelect x f test => bind (aeval vs x) (member f test)
  | ACall None f [a] => unary f (aeval vs a)
  | ACall None f [a; b] => binary f (aeval vs a) (aeval vs b)
  | ACall None f [a; b; c] => ternary f (aeval vs a) (aeval vs b) (aeval vs c)
  | ACall (Some a) f [] => method f (aeval vs a)
  | AList l => list_of (map (fun x => (tt, aeval vs x)) l)
  | AStruct ty l => struct_of ty (map (fun kv => (fst kv, aeval vs (snd kv))) l)
  | _ => Unknown
  end.
(** the interpreter follows CEL on this fragment *)
Definition speaks_cel (E : env) : Prop :=
  (forall s e, read_cel s = Some e -> o_parse E s = Some e) /\
  forall past e vs, match aeval vs e with Val v => o_cel E past e vs = Some v | Fails => o_cel E past e vs = None | Unknown => True end.

(** ** The replies *)
(** envoy.service.auth.v3.CheckResponse, as reply actions see it: a field that is not set is missing if it is
    a message or a member of a oneof *)
Inductive auth_answer :=
| Refused (code : Z) (headers body : value)
| Allowed (headers : list value) (metadata : option value)
| Unsupported            (* allowed, with changes the filter cannot make *)
| NoAnswer.
Definition auth_says (v : value) (a : auth_answer) : Prop :=
  exists ty fs, v = VStruct ty fs /\
  match a with
  | Refused code h b => get (tx "ok_response") fs = None /\
      exists td ds ts ss, get (tx "denied_response") fs = Some (VStruct td ds) /\ get (tx "status") ds = Some (VStruct ts ss) /\ get (tx "code") ss = Some (VInt code) /\
        (0 <= code)%Z /\ get (tx "headers") ds = Some h /\ get (tx "body") ds = Some b
  | Allowed hs md => get (tx "denied_response") fs = None /\ get (tx "dynamic_metadata") fs = md /\
      exists t os, get (tx "ok_response") fs = Some (VStruct t os) /\ get (tx "headers") os = Some (VList hs) /\
        get (tx "response_headers_to_add") os = Some (VList []) /\ get (tx "headers_to_remove") os = Some (VList []) /\
        get (tx "query_parameters_to_set") os = Some (VList []) /\ get (tx "query_parameters_to_remove") os = Some (VList [])
  | Unsupported => get (tx "denied_response") fs = None /\
      exists t os a b c d, get (tx "ok_response") fs = Some (VStruct t os) /\
        get (tx "response_headers_to_add") os = Some (VList a) /\ get (tx "headers_to_remove") os = Some (VList b) /\
        get (tx "query_parameters_to_set") os = Some (VList c) /\ get (tx "query_parameters_to_remove") os = Some (VList d) /\ a ++ b ++ c ++ d <> []
  | NoAnswer => get (tx "denied_response") fs = None /\ get (tx "ok_response") fs = None
  end.
(** what it is to lead to *)
Definition auth_verdict (a : auth_answer) : option (nat * ending) :=
  match a with
  | Refused code h b => Some (0, Denied [(tx "status", VUInt (if (code =? 0)%Z then 403 else Z.to_N code)); (tx "headers", h); (tx "body", b)])
  | Allowed _ _ => None
  | Unsupported => Some (1, Aborted)
  | NoAnswer => Some (4, Aborted)
  end.
(** envoy.service.ratelimit.v3.RateLimitResponse *)
Definition rl_says (v : value) (code : Z) (headers : value) : Prop :=
  exists ty fs, v = VStruct ty fs /\ get (tx "overall_code") fs = Some (VInt code) /\ get (tx "response_headers_to_add") fs = Some headers.
Definition rl_verdict (code : Z) (headers : value) : option (nat * ending) :=
  if (code =? 2)%Z then Some (0, Denied [(tx "status", VUInt 429); (tx "headers", headers); (tx "body", VString (tx "Too Many Requests" ++ [LF]))])
  else if (code =? 1)%Z then None
  else Some (2, Aborted).

(** * Lemmas *)
Lemma says_val E n v x e w : speaks_cel E -> read_cel x = Some e -> about n e = true -> (forall vs, get n vs = Some v -> aeval vs e = Val w) -> says_of E n v x (Some w).
Proof. intros [Hp Hc] Hr Ha Hv. exists e. split; [auto|]. split; [exact Ha|]. intros past vs H. specialize (Hc past e vs). now rewrite (Hv vs H) in Hc. Qed.
Lemma says_fails E n v x e : speaks_cel E -> read_cel x = Some e -> about n e = true -> (forall vs, get n vs = Some v -> aeval vs e = Fails) -> says_of E n v x None.
Proof. intros [Hp Hc] Hr Ha Hv. exists e. split; [auto|]. split; [exact Ha|]. intros past vs H. specialize (Hc past e vs). now rewrite (Hv vs H) in Hc. Qed.
Lemma speaks_constants E : speaks_cel E -> cel_constants E.
Proof.
  intros [_ Hc] l vs. split; [exact (Hc l (ALit (VBool true)) vs)|]. exists (tx "DenyResponse"). exact (Hc l default_deny vs).
Qed.
Ltac norm H := lazy -[get] in H.
Ltac look := cbv beta iota zeta delta [aeval map fst snd bind member]; repeat (match goal with H : get _ _ = _ |- _ => rewrite H end; cbv beta iota zeta delta [bind member]); lazy -[get Z.eqb Z.leb Z.to_N].
Ltac value_by tac := eapply says_val; [match goal with H : speaks_cel _ |- _ => exact H end|vm_compute; reflexivity|vm_compute; reflexivity|]; intros vs Hvs; norm Hvs; look; tac; reflexivity.
Ltac value_of := value_by idtac.

Lemma auth_leads E v a : speaks_cel E -> auth_says v a -> verdict E (tx "auth_response") v 0 (auth_on_reply (tx "auth_response")) (auth_verdict a).
Proof.
  intros HE (ty & fs & -> & Ha). unfold auth_on_reply. destruct a as [code h b|hs md| |]; cbn [auth_verdict].
  - destruct Ha as (Ho & td & ds & ts & ss & H1 & H2 & H3 & H0 & H4 & H5). norm Ho. norm H1. norm H2. norm H3. norm H4. norm H5.
    assert (Hl : (0 <=? code)%Z = true) by now apply Z.leb_le.
    destruct (code =? 0)%Z eqn:Hz; (eapply vd_deny; [value_of|value_by ltac:(rewrite ?Hz, ?Hl)]).
  - destruct Ha as (Hd & Hm & t & os & H1 & H2 & H3 & H4 & H5 & H6). norm Hd. norm Hm. norm H1. norm H2. norm H3. norm H4. norm H5. norm H6.
    eapply vd_skip; [exact Logic.I|value_of|unfold untrue; discriminate|].
    eapply vd_skip; [exact Logic.I|value_of|unfold untrue; discriminate|].
    apply vd_pass; [exact Logic.I|]. apply vd_pass; [exact Logic.I|].
    eapply vd_skip; [exact Logic.I|value_of|unfold untrue; discriminate|]. apply vd_end.
  - destruct Ha as (Hd & t & os & a & b & c & d & H1 & H3 & H4 & H5 & H6 & Hne). norm Hd. norm H1. norm H3. norm H4. norm H5. norm H6.
    eapply vd_skip; [exact Logic.I|value_of|unfold untrue; discriminate|].
    apply vd_fail. destruct a; [destruct b; [destruct c; [destruct d; [now destruct Hne|]|]|]|]; value_of.
  - destruct Ha as (H1 & H2). norm H1. norm H2.
    eapply vd_skip; [exact Logic.I|value_of|unfold untrue; discriminate|].
    eapply vd_skip; [exact Logic.I|value_of|unfold untrue; discriminate|].
    apply vd_pass; [exact Logic.I|]. apply vd_pass; [exact Logic.I|].
    apply vd_fail. value_of.
Qed.
Lemma rl_leads E v code h : speaks_cel E -> rl_says v code h -> verdict E (tx "ratelimit_response") v 0 (rl_on_reply (tx "ratelimit_response")) (rl_verdict code h).
Proof.
  intros HE (ty & fs & -> & H1 & H2). norm H1. norm H2. unfold rl_on_reply, rl_verdict. destruct (code =? 2)%Z eqn:C2.
  - eapply vd_deny; value_by ltac:(rewrite ?C2).
  - eapply vd_skip; [exact Logic.I|value_by ltac:(rewrite C2)|unfold untrue; discriminate|]. apply vd_pass; [exact Logic.I|]. destruct (code =? 1)%Z eqn:C1.
    + eapply vd_skip; [exact Logic.I|value_by ltac:(rewrite C1)|unfold untrue; discriminate|]. apply vd_end.
    + apply vd_fail. value_by ltac:(rewrite C1, C2).
Qed.

Lemma ok_says E v items md j p tm g sq op : speaks_cel E -> auth_says v (Allowed items md) -> nth_error (auth_on_reply (tx "auth_response")) j = Some (mkT p tm g sq op) ->
  (j = 2 -> forall w, md = Some w -> exists x, op = OpStore (tx "auth") x true /\ says_of E (tx "auth_response") v p (Some (VBool true)) /\ says_of E (tx "auth_response") v x (Some w)) /\
  (j = 3 -> exists x, op = OpHeaders MReq x /\ says_of E (tx "auth_response") v p (Some (VBool true)) /\ says_of E (tx "auth_response") v x (Some (VList items))).
Proof.
  intros HE (ty & fs & -> & Hd & Hmd & t & os & K1 & K2 & _) Hn. norm Hd. norm Hmd. norm K1. norm K2. split.
  - intros -> w ->. injection Hn as <- <- <- <- <-. eexists. split; [reflexivity|]. split; value_of.
  - intros ->. injection Hn as <- <- <- <- <-. eexists. split; [reflexivity|]. split; value_of.
Qed.

(** * C116, C117 *)
(** action [i] is a legacy action, for a service of kind [k] *)
Definition legacy_action (cfg : plugin_cfg) (s : action_set) (i : nat) (la : laction) (sc : svc_cfg) : Prop :=
  nth_error (as_actions s) i = Some (CLegacy la) /\ tget (la_service la) (pc_services cfg) = Some sc.
Lemma legacy_means E cfg s i la sc : legacy_action cfg s i la sc -> try_from E cfg <> None ->
  match sc_type sc with
  | SAuth => has_action E cfg s (nat_text i) (translate_auth la (cfg_rsrc E cfg))
  | SRateLimit | SRateLimitCheck => has_action E cfg s (nat_text i) (translate_ratelimit la (cfg_rsrc E cfg))
  | SRateLimitReport => has_action E cfg s (nat_text i) (translate_report la (cfg_rsrc E cfg))
  | _ => True
  end.
Proof.
  intros [Hi Hs] Hf. destruct (try_from E cfg) as [fa|] eqn:Ht; [|easy]. assert (exists svs, cfg_svs cfg = Some svs) as (svs & Hsv).
  { unfold try_from in Ht. fold (cfg_svs cfg) in Ht. destruct (cfg_svs cfg); [eauto|discriminate]. }
  destruct (svs_service cfg svs (la_service la) Hsv) as [Hg _]. rewrite Hs in Hg. unfold inst_of in Hg.
  destruct (sc_type sc) eqn:Hk; try exact Logic.I; (exists svs; split; [exact Hsv|]; exists i, (CLegacy la); eexists; split; [exact Hi|]; cbn [meaning]; rewrite Hg; split; [reflexivity|apply wi_self]).
Qed.

(** The reply of an authorization service decides: a denial is sent to the client with its status (403 if it
    is 0), headers and body; an approval goes on, with the metadata published as [auth] and the headers added
    to the request; an approval that asks for what the filter cannot do, or a reply that is neither, is an
    error. *)
Theorem C116_authorization_replies_decide : forall E cfg fa s l i la sc k sz v a,
  fresh_tokens E -> speaks_cel E -> try_from E cfg = Some fa -> serves E cfg fa s -> later l ->
  legacy_action cfg s i la sc -> sc_type sc = SAuth -> own_name E cfg s (tx "auth_response") ->
  ~ terminated (f_log (run E fa l)) -> call_open (f_log (run E fa l)) k (nat_text i) ->
  let now := EvEval (nat_text i) :: EvHandle k (nat_text i) :: EvGrpcResp k 0 sz :: f_log (run E fa l) in
  let h := f_log (run E fa (l ++ [InGrpc k 0 sz])) in
  replied E sc sz now v -> auth_says v a ->
  exists after, h = after ++ EvDone (nat_text i) :: now /\ carried cfg (nat_text i) 0 5 (auth_verdict a) after /\
    forall items md, a = Allowed items md ->
      (forall w, md = Some w -> Prop_Export.cel_ok w -> Prop_Export.portable w ->
        exists later prop bytes ok d before, h = later ++ EvSetProp prop bytes ok :: EvEval (reply_id (nat_text i) 2) :: before /\
          exported_as (tx "auth") prop /\ Prop_Export.shows w d /\ Prop_Export.read_back w bytes d) /\
      exists later evs before pairs, h = later ++ evs ++ EvEval (reply_id (nat_text i) 3) :: before /\ Prop_Headers.converted items pairs /\
        (pairs <> [] -> ~ unreadable E MReq (EvEval (reply_id (nat_text i) 3) :: before) ->
          exists h0 h1 ok, current E MReq (EvEval (reply_id (nat_text i) 3) :: before) h0 /\ Prop_Writes.changed pairs h0 h1 /\ evs = [EvSetMap MReq h1 ok]).
Proof.
  intros E cfg fa s l i la sc k sz v a F HE Hf Hs Hl Hla Hk Hown Ht Ho now h Hr Ha.
  pose proof (legacy_means E cfg s i la sc Hla ltac:(congruence)) as Hm. rewrite Hk in Hm. unfold translate_auth in Hm. cbv zeta in Hm.
  destruct (C115_replies_lead_to_their_verdict E cfg fa s l _ _ _ _ _ _ _ _ _ sc k sz v _ F Hf Hs Hl (speaks_constants E HE) Hm (proj2 Hla) Hown Ht Ho Hr (auth_leads E v a HE Ha)) as (after & H1 & H2 & H3).
  exists after. split; [exact H1|]. split; [exact H2|]. intros items md ->. fold h in H1, H3.
  split.
  - intros w Hw Hc Hp. destruct (H3 2 _ eq_refl Logic.I) as (lt & evs & before & E1 & E2).
    destruct (proj1 (ok_says E v items md 2 _ _ _ _ _ HE Ha eq_refl) eq_refl w Hw) as (x & Hx & S1 & S2). injection Hx as <-. cbn [writes_of] in E2.
    destruct (E2 w S1 S2 Hc Hp) as (prop & bytes & ok & d & -> & X1 & X2 & X3).
    exists lt, prop, bytes, ok, d. eexists. split; [exact E1|]. auto.
  - destruct (H3 3 _ eq_refl Logic.I) as (lt & evs & before & E1 & E2).
    destruct (proj2 (ok_says E v items md 3 _ _ _ _ _ HE Ha eq_refl) eq_refl) as (x & Hx & S1 & S2). injection Hx as <-. cbn [writes_of] in E2.
    destruct (E2 items S1 S2) as (pairs & X1 & X2). exists lt, evs. eexists. exists pairs. split; [exact E1|]. auto.
Qed.

(** The reply of a rate limit service decides: over the limit is 429 to the client, within it goes on, anything
    else is an error. *)
Theorem C117_rate_limit_replies_decide : forall E cfg fa s l i la sc k sz v code headers,
  fresh_tokens E -> speaks_cel E -> try_from E cfg = Some fa -> serves E cfg fa s -> later l ->
  legacy_action cfg s i la sc -> sc_type sc = SRateLimit \/ sc_type sc = SRateLimitCheck -> own_name E cfg s (tx "ratelimit_response") ->
  ~ terminated (f_log (run E fa l)) -> call_open (f_log (run E fa l)) k (nat_text i) ->
  let now := EvEval (nat_text i) :: EvHandle k (nat_text i) :: EvGrpcResp k 0 sz :: f_log (run E fa l) in
  let h := f_log (run E fa (l ++ [InGrpc k 0 sz])) in
  replied E sc sz now v -> rl_says v code headers ->
  exists after, h = after ++ EvDone (nat_text i) :: now /\ carried cfg (nat_text i) 0 3 (rl_verdict code headers) after.
Proof.
  intros E cfg fa s l i la sc k sz v code hd F HE Hf Hs Hl Hla Hk Hown Ht Ho now h Hr Ha.
  pose proof (legacy_means E cfg s i la sc Hla ltac:(congruence)) as Hm. assert (Hm' : has_action E cfg s (nat_text i) (translate_ratelimit la (cfg_rsrc E cfg))) by (destruct Hk as [Hk|Hk]; now rewrite Hk in Hm).
  clear Hm. unfold translate_ratelimit in Hm'. cbv zeta in Hm'.
  destruct (C115_replies_lead_to_their_verdict E cfg fa s l _ _ _ _ _ _ _ _ _ sc k sz v _ F Hf Hs Hl (speaks_constants E HE) Hm' (proj2 Hla) Hown Ht Ho Hr (rl_leads E v code hd HE Ha)) as (after & H1 & H2 & H3).
  now exists after.
Qed.

(** The reply of a report service never changes the outcome of a request. *)
Theorem C117_report_replies_change_nothing : forall E cfg fa s l i la sc k sz v,
  fresh_tokens E -> cel_constants E -> try_from E cfg = Some fa -> serves E cfg fa s -> later l ->
  legacy_action cfg s i la sc -> sc_type sc = SRateLimitReport -> own_name E cfg s (tx "report_response") ->
  ~ terminated (f_log (run E fa l)) -> call_open (f_log (run E fa l)) k (nat_text i) ->
  let now := EvEval (nat_text i) :: EvHandle k (nat_text i) :: EvGrpcResp k 0 sz :: f_log (run E fa l) in
  replied E sc sz now v ->
  exists after, f_log (run E fa (l ++ [InGrpc k 0 sz])) = after ++ EvDone (nat_text i) :: now /\ carried cfg (nat_text i) 0 1 None after.
Proof.
  intros E cfg fa s l i la sc k sz v F HE Hf Hs Hl Hla Hk Hown Ht Ho now Hr.
  pose proof (legacy_means E cfg s i la sc Hla ltac:(congruence)) as Hm. rewrite Hk in Hm. unfold translate_report in Hm. cbv zeta in Hm.
  destruct (C115_replies_lead_to_their_verdict E cfg fa s l _ _ _ _ _ _ _ _ _ sc k sz v None F Hf Hs Hl HE Hm (proj2 Hla) Hown Ht Ho Hr) as (after & H1 & H2 & H3); [|now exists after].
  apply vd_pass; [exact Logic.I|apply vd_end].
Qed.

(** * Examples *)
(** an interpreter that knows the fragment only *)
Definition cel_ref (past : log) (e : ast) (vs : list (text * value)) : option value :=
  match aeval vs e with Val v => Some v | Fails => None | Unknown => Some (VStruct [] []) end.
Definition parse_ref (s : text) : option ast := match read_cel s with Some e => Some e | None => Some AUnspec end.
Definition e_decode (E : env) f := mkEnv (h_prop E) (h_map E) (h_reqheader E) (h_setprop E) (h_setmap E) (h_reqbody E) (h_respbody E) (h_dispatch E) (h_grpcresp E) (h_reply E) (o_parse E) (o_cel E) (o_json E) (o_pointer E) (o_jshow E) (o_f64 E) (o_jnew E) (o_jfeed E) (o_jraw E) (o_jfinish E) (o_encode E) f (o_uuid E) (o_trace E) (o_span_on E) (o_spans E) (o_alpha E).
(** every service replies [v] *)
Definition Er (v : value) : env := e_decode (e_parse (e_cel Ed cel_ref) parse_ref) (fun _ _ _ => Some v).
Lemma Er_fresh v : fresh_tokens (Er v).
Proof. intros l c k [= <-] H. apply next_token_above in H. lia. Qed.
Lemma Er_cel v : speaks_cel (Er v).
Proof.
  split.
  - intros s e H. change (parse_ref s = Some e). unfold parse_ref. now rewrite H.
  - intros past e vs. change (o_cel (Er v) past e vs) with (cel_ref past e vs). unfold cel_ref. destruct (aeval vs e); auto.
Qed.
Definition hdr (k v : string) : value := VStruct (tx "HeaderValueOption") [(tx "header", VStruct (tx "HeaderValue") [(tx "key", VString (tx k)); (tx "value", VString (tx v))])].
Definition refusal (code : Z) : value :=
  VStruct (tx "CheckResponse") [(tx "denied_response", VStruct (tx "DeniedHttpResponse")
    [(tx "status", VStruct (tx "HttpStatus") [(tx "code", VInt code)]); (tx "headers", VList [hdr "x-why" "no"]); (tx "body", VString (tx "go away"))])].
Definition bare_refusal : value :=
  VStruct (tx "CheckResponse") [(tx "denied_response", VStruct (tx "DeniedHttpResponse") [(tx "headers", VList []); (tx "body", VString [])])].
Definition approval : value :=
  VStruct (tx "CheckResponse") [(tx "ok_response", VStruct (tx "OkHttpResponse")
     [(tx "headers", VList [hdr "x-user" "me"]); (tx "headers_to_remove", VList []); (tx "response_headers_to_add", VList []);
      (tx "query_parameters_to_set", VList []); (tx "query_parameters_to_remove", VList [])]);
   (tx "dynamic_metadata", VMap [(KStr (tx "user"), VString (tx "me"))])].
Definition limit (code : Z) : value := VStruct (tx "RateLimitResponse") [(tx "overall_code", VInt code); (tx "response_headers_to_add", VList [hdr "x-left" "0"])].
Definition exa : list action_cfg := [dleg "auth"].
Definition exr : list action_cfg := [dleg "rl"].
Ltac premises := split; [apply Er_fresh|]; split; [apply Er_cel|]; split; [vm_compute; reflexivity|]; split; [serve|]; split; [now intros []|]; split; [split; reflexivity|]; split; [auto|]; split; [eapply own_name_check; vm_compute; reflexivity|];
  split; [apply no_end_spec; vm_compute; reflexivity|]; split; [apply (call_open_spec _ 0 (nat_text 0)); vm_compute; tauto|]; split; [do 3 eexists; split; [vm_compute; reflexivity|split; vm_compute; reflexivity]|].
Definition premises_of (v : value) (acts : list action_cfg) (sc : svc_cfg) (n : text) (kind : stype -> Prop) : Prop :=
  fresh_tokens (Er v) /\ speaks_cel (Er v) /\ try_from (Er v) (dcfg acts) = Some (dfac (Er v) acts) /\ serves (Er v) (dcfg acts) (dfac (Er v) acts) (set_of acts) /\ later [] /\
  legacy_action (dcfg acts) (set_of acts) 0 (match acts with CLegacy la :: _ => la | _ => mkLaction [] [] [] [] end) sc /\ kind (sc_type sc) /\ own_name (Er v) (dcfg acts) (set_of acts) n /\
  ~ terminated (dlog (Er v) acts []) /\ call_open (dlog (Er v) acts []) 0 (nat_text 0) /\
  replied (Er v) sc 0 (EvEval (nat_text 0) :: EvHandle 0 (nat_text 0) :: EvGrpcResp 0 0 0 :: dlog (Er v) acts []) v /\ True.
Definition asvc : svc_cfg := mkSvcCfg SAuth (tx "authorino") true 100 None None.
Definition rsvc : svc_cfg := mkSvcCfg SRateLimit (tx "limitador") true 100 None None.
(** denied: the client gets the status, the headers and the body *)
Example C116_refused_ex : premises_of (refusal 401) exa asvc (tx "auth_response") (fun k => k = SAuth) /\
  auth_says (refusal 401) (Refused 401 (VList [hdr "x-why" "no"]) (VString (tx "go away"))) /\
  In (EvReply 401 [(tx "x-why", tx "no")] (Some (tx "go away")) true) (dlog (Er (refusal 401)) exa [InGrpc 0 0 0]).
Proof.
  split; [premises; exact Logic.I|]. split; [|find]. do 2 eexists. split; [reflexivity|]. split; [reflexivity|]. do 4 eexists. repeat split; try reflexivity. discriminate.
Qed.
(** approved: the metadata is published, the header added, the request goes on *)
Example C116_allowed_ex : exists b, premises_of approval exa asvc (tx "auth_response") (fun k => k = SAuth) /\
  auth_says approval (Allowed [hdr "x-user" "me"] (Some (VMap [(KStr (tx "user"), VString (tx "me"))]))) /\
  In (EvSetMap MReq [(tx "x-user", tx "me")] true) (dlog (Er approval) exa [InGrpc 0 0 0]) /\
  In (EvSetProp [tx "kuadrant.auth"] b true) (dlog (Er approval) exa [InGrpc 0 0 0]) /\ In EvResumeReq (dlog (Er approval) exa [InGrpc 0 0 0]).
Proof.
  eexists. split; [premises; exact Logic.I|]. split; [|split; [find|split; find]]. do 2 eexists. split; [reflexivity|]. split; [reflexivity|]. split; [reflexivity|]. do 2 eexists. repeat split; reflexivity.
Qed.
Example C117_ex : premises_of (limit 2) exr rsvc (tx "ratelimit_response") (fun k => k = SRateLimit \/ k = SRateLimitCheck) /\ rl_says (limit 2) 2 (VList [hdr "x-left" "0"]) /\
  In (EvReply 429 [(tx "x-left", tx "0")] (Some (tx "Too Many Requests" ++ [LF])) true) (dlog (Er (limit 2)) exr [InGrpc 0 0 0]).
Proof. split; [premises; exact Logic.I|]. split; [|find]. do 2 eexists. repeat split; reflexivity. Qed.

(** The denial must come with a status, though the protocol makes it optional (403 is meant then): otherwise its
    evaluation fails, and the request goes on as if it had been approved. *)
Theorem C116_every_denial_is_sent_refuted : exists v ty fs, v = VStruct ty fs /\ get (tx "denied_response") fs <> None /\
  premises_of v exa asvc (tx "auth_response") (fun k => k = SAuth) /\
  In EvResumeReq (dlog (Er v) exa [InGrpc 0 0 0]) /\ forall st h b ok, ~ In (EvReply st h b ok) (dlog (Er v) exa [InGrpc 0 0 0]).
Proof.
  exists bare_refusal. do 2 eexists. split; [reflexivity|]. split; [discriminate|]. split; [premises; exact Logic.I|]. split; [find|].
  intros st h b ok. vm_compute. intros H. repeat (destruct H as [H|H]; [discriminate|]). exact H.
Qed.

Print Assumptions C116_authorization_replies_decide.
Print Assumptions C117_rate_limit_replies_decide.
Print Assumptions C117_report_replies_change_nothing.
Print Assumptions C116_every_denial_is_sent_refuted.
