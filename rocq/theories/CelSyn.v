(** The syntax of CEL, from its language definition (not code of /repo): a lexer and a parser
    used to state what generated source text means.  Left out: the optional-value syntax and
    identifiers in back-quotes; [1e] followed by something other than a number is rejected
    instead of being read as two tokens; macros are left as calls. *)
From Coq Require Import String List NArith Bool Ascii.
From Verif Require Import Base.
Import ListNotations.
Open Scope list_scope.

Inductive punct := PLP | PRP | PLB | PRB | PLC | PRC | PComma | PDot | PQ | PColon | POr | PAnd
  | PEq | PNe | PLt | PLe | PGt | PGe | PPlus | PMinus | PStar | PSlash | PPct | PNot.
Inductive token := TkId (s : text) | TkNum (s : text) | TkStr (s : text) | TkBytes (s : text) | TkP (p : punct).

(** * Lexer: one character at a time *)
Record smode := mkSm { sm_raw : bool; sm_bytes : bool; sm_quote : ascii }.
Inductive lst :=
| LS | LId (acc : text) | LNum (acc : text) | LNumX (acc : text) | LNumDot (acc : text) | LFrac (acc : text)
| LExp (acc : text) | LExpS (acc : text) | LExpD (acc : text) | LDot | LP (a : ascii) | LCom
| LQ1 (m : smode) | LQ2 (m : smode) | LStr (m : smode) (triple : bool) (acc : text)
| LStrE (m : smode) (triple : bool) (acc : text) | LStrX (m : smode) (triple : bool) (acc : text) (base : N) (todo : nat) (n : N)
| LStrQ (m : smode) (acc : text) (second : bool).

Definition code (n : N) : ascii := Ascii.ascii_of_N n.
Definition is_c (n : N) (a : ascii) : bool := N.eqb (N_of_ascii a) n.
Definition is_letter (a : ascii) : bool := in_rng 65 90 a || in_rng 97 122 a || is_c 95 a.
Definition is_quote (a : ascii) : bool := is_c 34 a || is_c 39 a.
Definition is_blank (a : ascii) : bool := is_c 32 a || is_c 9 a || is_c 10 a || is_c 12 a || is_c 13 a.
(** value of a digit in a base up to 16 *)
Definition digit_of (base : N) (a : ascii) : option N :=
  let v := if is_digit a then Some (N_of_ascii a - 48)%N
           else if in_rng 65 70 a then Some (N_of_ascii a - 55)%N
           else if in_rng 97 102 a then Some (N_of_ascii a - 87)%N else None in
  match v with Some d => if N.ltb d base then Some d else None | None => None end.
Definition single (a : ascii) : option punct :=
  match find (fun x => Ascii.eqb (fst x) a)
    [("("%char, PLP); (")"%char, PRP); ("["%char, PLB); ("]"%char, PRB); ("{"%char, PLC); ("}"%char, PRC); (","%char, PComma);
     ("?"%char, PQ); (":"%char, PColon); ("+"%char, PPlus); ("-"%char, PMinus); ("*"%char, PStar); ("%"%char, PPct)] with
  | Some x => Some (snd x)
  | None => None
  end.
(** first characters of one- or two-character operators *)
Definition opens (a : ascii) : bool := existsb (Ascii.eqb a) ["&"%char; "|"%char; "="%char; "!"%char; "<"%char; ">"%char; "/"%char].
Definition alone (a : ascii) : option punct :=
  match find (fun x => Ascii.eqb (fst x) a) [("!"%char, PNot); ("<"%char, PLt); (">"%char, PGt); ("/"%char, PSlash)] with Some x => Some (snd x) | None => None end.
Definition double (a b : ascii) : option punct :=
  match find (fun x => Ascii.eqb (fst (fst x)) a && Ascii.eqb (snd (fst x)) b)
    [(("&"%char, "&"%char), PAnd); (("|"%char, "|"%char), POr); (("="%char, "="%char), PEq); (("!"%char, "="%char), PNe); (("<"%char, "="%char), PLe); ((">"%char, "="%char), PGe)] with
  | Some x => Some (snd x)
  | None => None
  end.
(** one-character escapes *)
Definition escape (a : ascii) : option ascii :=
  match find (fun x => Ascii.eqb (fst x) a)
    [("a"%char, code 7); ("b"%char, code 8); ("f"%char, code 12); ("n"%char, code 10); ("r"%char, code 13); ("t"%char, code 9); ("v"%char, code 11);
     (code 34, code 34); (code 39, code 39); (code 92, code 92); ("?"%char, "?"%char); (code 96, code 96)] with
  | Some x => Some (snd x)
  | None => None
  end.
(** prefixes of string literals: raw and bytes *)
Definition prefix (s : text) (q : ascii) : option smode :=
  match map N_of_ascii s with
  | [114%N] | [82%N] => Some (mkSm true false q)
  | [98%N] | [66%N] => Some (mkSm false true q)
  | [98%N; 114%N] | [98%N; 82%N] | [66%N; 114%N] | [66%N; 82%N] => Some (mkSm true true q)
  | _ => None
  end.
Definition literal (m : smode) (acc : text) : token := if sm_bytes m then TkBytes acc else TkStr acc.

Definition start (a : ascii) : option (list token * lst) :=
  if is_blank a then Some ([], LS)
  else if is_letter a then Some ([], LId [a])
  else if is_digit a then Some ([], LNum [a])
  else if is_quote a then Some ([], LQ1 (mkSm false false a))
  else if is_c 46 a then Some ([], LDot)
  else if opens a then Some ([], LP a)
  else match single a with Some p => Some ([TkP p], LS) | None => None end.
Definition andthen (ts : list token) (a : ascii) : option (list token * lst) :=
  match start a with Some (t, s) => Some (ts ++ t, s) | None => None end.
(** a character inside a string literal *)
Definition inside (m : smode) (triple : bool) (acc : text) (a : ascii) : option (list token * lst) :=
  if is_c 92 a && negb (sm_raw m) then Some ([], LStrE m triple acc)
  else if Ascii.eqb a (sm_quote m) then
    if triple then Some ([], LStrQ m acc false) else Some ([literal m acc], LS)
  else if negb triple && (is_c 10 a || is_c 13 a) then None
  else Some ([], LStr m triple (acc ++ [a])).

Definition lstep (s : lst) (a : ascii) : option (list token * lst) :=
  match s with
  | LS => start a
  | LId acc => if is_letter a || is_digit a then Some ([], LId (acc ++ [a]))
               else if is_quote a then match prefix acc a with Some m => Some ([], LQ1 m) | None => andthen [TkId acc] a end
               else andthen [TkId acc] a
  | LNum acc =>
      if is_digit a then Some ([], LNum (acc ++ [a]))
      else if is_c 46 a then Some ([], LNumDot acc)
      else if is_c 101 a || is_c 69 a then Some ([], LExp (acc ++ [a]))
      else if is_c 117 a || is_c 85 a then Some ([TkNum (acc ++ [a])], LS)
      else if is_c 120 a && text_eqb acc (tx "0") then Some ([], LNumX (acc ++ [a]))
      else andthen [TkNum acc] a
  | LNumX acc =>
      match digit_of 16 a with
      | Some _ => Some ([], LNumX (acc ++ [a]))
      | None => if is_c 117 a || is_c 85 a then Some ([TkNum (acc ++ [a])], LS) else andthen [TkNum acc] a
      end
  | LNumDot acc => if is_digit a then Some ([], LFrac (acc ++ [code 46; a])) else andthen [TkNum acc; TkP PDot] a
  | LFrac acc => if is_digit a then Some ([], LFrac (acc ++ [a]))
                 else if is_c 101 a || is_c 69 a then Some ([], LExp (acc ++ [a])) else andthen [TkNum acc] a
  | LExp acc => if is_digit a then Some ([], LExpD (acc ++ [a])) else if is_c 43 a || is_c 45 a then Some ([], LExpS (acc ++ [a])) else None
  | LExpS acc => if is_digit a then Some ([], LExpD (acc ++ [a])) else None
  | LExpD acc => if is_digit a then Some ([], LExpD (acc ++ [a])) else andthen [TkNum acc] a
  | LDot => if is_digit a then Some ([], LFrac [code 46; a]) else andthen [TkP PDot] a
  | LP c =>
      if is_c 47 c && is_c 47 a then Some ([], LCom)
      else match double c a with
           | Some p => Some ([TkP p], LS)
           | None => match alone c with Some p => andthen [TkP p] a | None => None end
           end
  | LCom => if is_c 10 a then Some ([], LS) else Some ([], LCom)
  | LQ1 m => if Ascii.eqb a (sm_quote m) then Some ([], LQ2 m) else inside m false [] a
  | LQ2 m => if Ascii.eqb a (sm_quote m) then Some ([], LStr m true []) else andthen [literal m []] a
  | LStr m triple acc => inside m triple acc a
  | LStrE m triple acc =>
      match escape a with
      | Some c => Some ([], LStr m triple (acc ++ [c]))
      | None =>
          if is_c 120 a || is_c 88 a then Some ([], LStrX m triple acc 16 2 0)
          else if is_c 117 a then Some ([], LStrX m triple acc 16 4 0)
          else if is_c 85 a then Some ([], LStrX m triple acc 16 8 0)
          else match digit_of 4 a with Some d => Some ([], LStrX m triple acc 8 2 d) | None => None end
      end
  | LStrX m triple acc base todo n =>
      match digit_of base a, todo with
      | Some d, S (S l) => Some ([], LStrX m triple acc base (S l) (n * base + d))
      | Some d, _ => Some ([], LStr m triple (acc ++ utf8_char (n * base + d)))
      | None, _ => None
      end
  | LStrQ m acc second =>
      if Ascii.eqb a (sm_quote m) then if second then Some ([literal m acc], LS) else Some ([], LStrQ m acc true)
      else inside m true (acc ++ (if second then [sm_quote m; sm_quote m] else [sm_quote m])) a
  end.
Definition lend (s : lst) : option (list token) :=
  match s with
  | LS | LCom => Some []
  | LId acc => Some [TkId acc]
  | LNum acc | LNumX acc | LFrac acc | LExpD acc => Some [TkNum acc]
  | LNumDot acc => Some [TkNum acc; TkP PDot]
  | LDot => Some [TkP PDot]
  | LP c => match alone c with Some p => Some [TkP p] | None => None end
  | LQ2 m => Some [literal m []]
  | _ => None
  end.
Fixpoint lrun (s : lst) (l : text) : option (list token * lst) :=
  match l with
  | [] => Some ([], s)
  | a :: l' => match lstep s a with
               | Some (t, s') => match lrun s' l' with Some (ts, s2) => Some (t ++ ts, s2) | None => None end
               | None => None
               end
  end.
Definition lex (l : text) : option (list token) :=
  match lrun LS l with
  | Some (ts, s) => match lend s with Some t => Some (ts ++ t) | None => None end
  | None => None
  end.

(** * Parser *)
Inductive tree :=
| TrId (s : text) | TrNum (s : text) | TrStr (s : text) | TrBytes (s : text)
| TrSel (t : tree) (f : text) | TrCall (t : option tree) (f : text) (args : list tree) | TrIdx (t i : tree)
| TrList (l : list tree) | TrMap (l : list (tree * tree)) | TrMsg (t : tree) (fs : list (text * tree))
| TrNot (t : tree) | TrNeg (t : tree) | TrBin (p : punct) (a b : tree) | TrIn (a b : tree) | TrOr (a b : tree) | TrAnd (a b : tree) | TrCond (c a b : tree).

(** precedence levels of the binary operators *)
Inductive level := VOr | VAnd | VRel | VAdd | VMul.
Inductive goal :=
| GExpr | GBin (k : level) | GLoop (k : level) (a : tree) | GUnary | GNot | GNeg | GMember | GPost (t : tree) | GPrim
| GArgs (close : punct) (acc : list tree) | GPairs (acc : list (tree * tree)) | GFields (t : tree) (acc : list (text * tree)).
Definition below (k : level) : goal :=
  match k with VOr => GBin VAnd | VAnd => GBin VRel | VRel => GBin VAdd | VAdd => GBin VMul | VMul => GUnary end.
Definition binop (k : level) (t : token) : option (tree -> tree -> tree) :=
  match k, t with
  | VOr, TkP POr => Some TrOr
  | VAnd, TkP PAnd => Some TrAnd
  | VRel, TkP ((PEq | PNe | PLt | PLe | PGt | PGe) as p) => Some (TrBin p)
  | VRel, TkId s => if text_eqb s (tx "in") then Some TrIn else None
  | VAdd, TkP ((PPlus | PMinus) as p) => Some (TrBin p)
  | VMul, TkP ((PStar | PSlash | PPct) as p) => Some (TrBin p)
  | _, _ => None
  end.
Fixpoint dotted (t : tree) : bool := match t with TrId _ => true | TrSel t' _ => dotted t' | _ => false end.
Definition closes (c : punct) (t : token) : bool :=
  match c, t with PRP, TkP PRP | PRB, TkP PRB | PRC, TkP PRC => true | _, _ => false end.

Fixpoint parse (n : nat) (g : goal) (ts : list token) {struct n} : option (tree * list token) :=
  match n with
  | O => None
  | S n =>
      match g with
      | GExpr =>
          match parse n (GBin VOr) ts with
          | Some (c, TkP PQ :: r) =>
              match parse n (GBin VOr) r with
              | Some (a, TkP PColon :: r2) => match parse n GExpr r2 with Some (b, r3) => Some (TrCond c a b, r3) | None => None end
              | _ => None
              end
          | x => x
          end
      | GBin k => match parse n (below k) ts with Some (a, r) => parse n (GLoop k a) r | None => None end
      | GLoop k a =>
          match ts with
          | [] => Some (a, [])
          | t :: r => match binop k t with
                      | Some f => match parse n (below k) r with Some (b, r2) => parse n (GLoop k (f a b)) r2 | None => None end
                      | None => Some (a, ts)
                      end
          end
      | GUnary => match ts with TkP PNot :: r => parse n GNot ts | TkP PMinus :: r => parse n GNeg ts | _ => parse n GMember ts end
      | GNot => match ts with TkP PNot :: r => match parse n GNot r with Some (t, r2) => Some (TrNot t, r2) | None => None end | _ => parse n GMember ts end
      | GNeg => match ts with TkP PMinus :: r => match parse n GNeg r with Some (t, r2) => Some (TrNeg t, r2) | None => None end | _ => parse n GMember ts end
      | GMember => match parse n GPrim ts with Some (t, r) => parse n (GPost t) r | None => None end
      | GPost t =>
          match ts with
          | TkP PDot :: r =>
              match r with
              | TkId f :: r2 =>
                  match r2 with
                  | TkP PLP :: r3 => match parse n (GArgs PRP []) r3 with Some (TrList l, r4) => parse n (GPost (TrCall (Some t) f l)) r4 | _ => None end
                  | _ => parse n (GPost (TrSel t f)) r2
                  end
              | _ => None
              end
          | TkP PLB :: r => match parse n GExpr r with Some (i, TkP PRB :: r2) => parse n (GPost (TrIdx t i)) r2 | _ => None end
          | TkP PLC :: r => if dotted t then match parse n (GFields t []) r with Some (m, r2) => parse n (GPost m) r2 | None => None end else None
          | _ => Some (t, ts)
          end
      | GPrim =>
          match ts with
          | TkId s :: r =>
              if text_eqb s (tx "in") then None
              else match r with
                   | TkP PLP :: r2 => match parse n (GArgs PRP []) r2 with Some (TrList l, r3) => Some (TrCall None s l, r3) | _ => None end
                   | _ => Some (TrId s, r)
                   end
          | TkP PDot :: TkId s :: r => if text_eqb s (tx "in") then None else Some (TrId (tx "." ++ s), r)
          | TkNum s :: r => Some (TrNum s, r)
          | TkStr s :: r => Some (TrStr s, r)
          | TkBytes s :: r => Some (TrBytes s, r)
          | TkP PLP :: r => match parse n GExpr r with Some (t, TkP PRP :: r2) => Some (t, r2) | _ => None end
          | TkP PLB :: r => parse n (GArgs PRB []) r
          | TkP PLC :: r => parse n (GPairs []) r
          | _ => None
          end
      | GArgs c acc =>
          match ts with
          | [] => None
          | t :: r =>
              if closes c t && match c, acc with PRP, _ :: _ => false | _, _ => true end then Some (TrList acc, r)
              else match parse n GExpr ts with
                   | Some (e, TkP PComma :: r2) => parse n (GArgs c (acc ++ [e])) r2
                   | Some (e, t2 :: r2) => if closes c t2 then Some (TrList (acc ++ [e]), r2) else None
                   | _ => None
                   end
          end
      | GPairs acc =>
          match ts with
          | TkP PRC :: r => Some (TrMap acc, r)
          | _ =>
              match parse n GExpr ts with
              | Some (k, TkP PColon :: r) =>
                  match parse n GExpr r with
                  | Some (v, TkP PComma :: r2) => parse n (GPairs (acc ++ [(k, v)])) r2
                  | Some (v, TkP PRC :: r2) => Some (TrMap (acc ++ [(k, v)]), r2)
                  | _ => None
                  end
              | _ => None
              end
          end
      | GFields m acc =>
          match ts with
          | TkP PRC :: r => Some (TrMsg m acc, r)
          | TkId f :: TkP PColon :: r =>
              match parse n GExpr r with
              | Some (v, TkP PComma :: r2) => parse n (GFields m (acc ++ [(f, v)])) r2
              | Some (v, TkP PRC :: r2) => Some (TrMsg m (acc ++ [(f, v)]), r2)
              | _ => None
              end
          | _ => None
          end
      end
  end.

(** [parses s t]: the text [s] is an expression, [t] *)
Definition parses (s : text) (t : tree) : Prop := exists ts n, lex s = Some ts /\ parse n GExpr ts = Some (t, []).

(** A logic: what [&&], [||], [!] and [?:] do with results, which may include errors *)
Record logic := mkLogic { lg_t : Type; lg_true : lg_t; lg_false : lg_t; lg_and : lg_t -> lg_t -> lg_t; lg_or : lg_t -> lg_t -> lg_t; lg_not : lg_t -> lg_t; lg_if : lg_t -> lg_t -> lg_t -> lg_t }.
(** meaning of an expression, given that of the operands that are not logical *)
Fixpoint means (G : logic) (v : tree -> lg_t G) (t : tree) : lg_t G :=
  match t with
  | TrOr a b => lg_or G (means G v a) (means G v b)
  | TrAnd a b => lg_and G (means G v a) (means G v b)
  | TrNot a => lg_not G (means G v a)
  | TrCond c a b => lg_if G (means G v c) (means G v a) (means G v b)
  | TrId s => if text_eqb s (tx "true") then lg_true G else if text_eqb s (tx "false") then lg_false G else v t
  | _ => v t
  end.
