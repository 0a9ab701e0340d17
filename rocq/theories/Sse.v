(** Model of the server-sent-event parser: KF/kuadrant/pipeline/tasks/store/
    sse_body_parser.rs (SB) and sse_body_parser/sse_line_parser.rs (SL).
    Texts are byte strings; every byte of a multi-byte character is a name character
    and an any-character, as the character itself is (SL:58-71). *)
From Coq Require Import String List NArith Bool Ascii.
From Verif Require Import Base.
Import ListNotations.
Open Scope list_scope.

Definition LF : ascii := Ascii.ascii_of_N 10.
Definition CR : ascii := Ascii.ascii_of_N 13.
Definition SP : ascii := " "%char.
Definition COL : ascii := ":"%char.
Definition NUL : ascii := Ascii.ascii_of_N 0.

(** SL:66-71 [is_any_char], SL:58-64 [is_name_char] *)
Definition is_any_char (c : ascii) : bool := negb (Ascii.eqb c LF || Ascii.eqb c CR).
Definition is_name_char (c : ascii) : bool := is_any_char c && negb (Ascii.eqb c COL).

(** Result of a streaming nom parser. *)
Inductive nres (A : Type) := NOk (rest : text) (a : A) | NIncomplete | NError.
Arguments NOk {A}. Arguments NIncomplete {A}. Arguments NError {A}.

Fixpoint span (p : ascii -> bool) (s : text) : text * text :=
  match s with
  | [] => ([], [])
  | c :: s' => if p c then let (a, b) := span p s' in (c :: a, b) else ([], s)
  end.

(** nom streaming [take_while]: needs a character that does not match *)
Definition take_while (p : ascii -> bool) (s : text) : nres text :=
  match span p s with
  | (_, []) => NIncomplete
  | (a, r) => NOk r a
  end.
(** nom streaming [take_while1] *)
Definition take_while1 (p : ascii -> bool) (s : text) : nres text :=
  match span p s with
  | (_, []) => NIncomplete
  | ([], _) => NError
  | (a, r) => NOk r a
  end.
(** nom 8 streaming [take_while_m_n(1, 1, p)]: it looks one character past the match *)
Definition take_one (p : ascii -> bool) (s : text) : nres text :=
  match s with
  | [] => NIncomplete
  | c :: s' => if p c then match s' with [] => NIncomplete | _ => NOk s' [c] end else NError
  end.

(** SL:73-80 [crlf], [end_of_line]: streaming [tag] of a two-character text is
    incomplete on a proper prefix of it *)
Definition end_of_line (s : text) : nres unit :=
  match s with
  | [] => NIncomplete
  | c :: s' =>
      if Ascii.eqb c CR then
        match s' with
        | [] => NIncomplete
        | d :: s'' => if Ascii.eqb d LF then NOk s'' tt else NOk s' tt
        end
      else if Ascii.eqb c LF then NOk s' tt
      else NError
  end.

Definition nbind {A B} (r : nres A) (f : A -> text -> nres B) : nres B :=
  match r with
  | NOk rest a => f a rest
  | NIncomplete => NIncomplete
  | NError => NError
  end.
(** nom [opt] *)
Definition nopt {A} (r : nres A) (s : text) : nres (option A) :=
  match r with
  | NOk rest a => NOk rest (Some a)
  | NIncomplete => NIncomplete
  | NError => NOk s None
  end.
(** nom [alt] *)
Definition nalt {A} (r : nres A) (other : nres A) : nres A :=
  match r with NError => other | _ => r end.

(** SL:35-40 [RawEventLine] *)
Inductive rawline := RComment (c : text) | RField (name : text) (val : option text) | REmpty.

(** SL:83-91 [comment] *)
Definition p_comment (s : text) : nres rawline :=
  nbind (take_one (Ascii.eqb COL) s) (fun _ s1 =>
  nbind (take_while is_any_char s1) (fun c s2 =>
  nbind (end_of_line s2) (fun _ s3 => NOk s3 (RComment c)))).
(** SL:93-107 [field] *)
Definition p_value (s : text) : nres text :=
  nbind (take_one (Ascii.eqb COL) s) (fun _ s1 =>
  nbind (nopt (take_one (Ascii.eqb SP) s1) s1) (fun _ s2 => take_while is_any_char s2)).
Definition p_field (s : text) : nres rawline :=
  nbind (take_while1 is_name_char s) (fun name s1 =>
  nbind (nopt (p_value s1) s1) (fun val s2 =>
  nbind (end_of_line s2) (fun _ s3 => NOk s3 (RField name val)))).
(** SL:109-111 [empty] *)
Definition p_empty (s : text) : nres rawline := nbind (end_of_line s) (fun _ r => NOk r REmpty).
(** SL:113-115 [line] *)
Definition p_line (s : text) : nres rawline := nalt (p_comment s) (nalt (p_field s) (p_empty s)).

(** SB:12-22 [Event]; [retry] in milliseconds *)
Record event := mkEvent { e_event : text; e_data : text; e_id : text; e_retry : option N }.
(** SB:73-77 [EventBuilder] *)
Record builder := mkBuilder { bl_event : event; bl_complete : bool }.
Definition builder0 : builder := mkBuilder (mkEvent [] [] [] None) false.
(** SB:24-28 [EventParser] *)
Record sparser := mkSparser { sp_buf : text; sp_bld : builder }.
Definition sparser0 : sparser := mkSparser [] builder0.

(** [str::parse::<u64>]: optional '+', at least one digit, no overflow *)
Fixpoint dec_digits (acc : N) (s : text) : option N :=
  match s with
  | [] => Some acc
  | c :: s' => if is_digit c then dec_digits (acc * 10 + (bval c - 48))%N s' else None
  end.
Definition dec_u64 (s : text) : option N :=
  let s' := match s with c :: r => if Ascii.eqb c "+"%char then r else s | [] => [] end in
  match s' with
  | [] => None
  | _ => match dec_digits 0 s' with
         | Some n => if (n <? 18446744073709551616)%N then Some n else None
         | None => None
         end
  end.

(** SB:80-106 [EventBuilder::add] *)
Definition bl_add (l : rawline) (b : builder) : builder :=
  let e := bl_event b in
  match l with
  | REmpty => mkBuilder e true
  | RComment _ => b
  | RField name val =>
      let v := match val with Some v => v | None => [] end in
      if text_eqb name (tx "event") then
        mkBuilder (mkEvent v (e_data e) (e_id e) (e_retry e)) (bl_complete b)
      else if text_eqb name (tx "data") then
        mkBuilder (mkEvent (e_event e)
                     (match e_data e with [] => v | d => d ++ LF :: v end)
                     (e_id e) (e_retry e)) (bl_complete b)
      else if text_eqb name (tx "id") && negb (existsb (Ascii.eqb NUL) v) then
        mkBuilder (mkEvent (e_event e) (e_data e) v (e_retry e)) (bl_complete b)
      else if text_eqb name (tx "retry") then
        match dec_u64 v with
        | Some n => mkBuilder (mkEvent (e_event e) (e_data e) (e_id e) (Some n)) (bl_complete b)
        | None => b
        end
      else b
  end.

(** SB:116-118: drop one trailing LF *)
Definition pop_lf (d : text) : text :=
  match rev d with
  | c :: r => if Ascii.eqb c LF then rev r else d
  | [] => d
  end.

(** SB:108-127 [EventBuilder::dispatch] (the builder is reset by the caller) *)
Definition bl_dispatch (b : builder) : option event :=
  let e := bl_event b in
  match e_data e with
  | [] => None
  | _ => Some (mkEvent (match e_event e with [] => tx "message" | n => n end)
                 (pop_lf (e_data e)) (e_id e) (e_retry e))
  end.

(** Outcome of a parse: a list of events, an error text (its content is not modelled),
    or [None] when the fuel runs out (never: [parse_fuel_ok] in P_Sse.v). *)
Inductive pres := POk (evs : list event) (p : sparser) | PErr (p : sparser) | PFuel.

(** SB:47-70 [parse_one_event] iterated by SB:40-42 *)
Fixpoint parse_loop (fuel : nat) (p : sparser) (acc : list event) : pres :=
  match fuel with
  | O => PFuel
  | S k =>
      match p_line (sp_buf p) with
      | NOk rest l =>
          let b := bl_add l (sp_bld p) in
          if bl_complete b then
            match bl_dispatch b with
            | Some e => parse_loop k (mkSparser rest builder0) (acc ++ [e])
            | None => parse_loop k (mkSparser rest builder0) acc
            end
          else parse_loop k (mkSparser rest b) acc
      | NIncomplete => POk acc p
      | NError => PErr p
      end
  end.

(** SB:31-45 [EventParser::parse]; an invalid UTF-8 chunk is an error and is dropped.
    The early return on an empty buffer (SB:48-50) coincides with [NIncomplete]. *)
Definition sse_parse (chunk : text) (p : sparser) : pres :=
  if utf8_valid chunk then
    let p' := mkSparser (sp_buf p ++ chunk) (sp_bld p) in
    parse_loop (S (length (sp_buf p'))) p' []
  else PErr p.

(** SB:147-150 and token_usage.rs:151-154 [push_event]: index 0 the last event, index 1
    the one before *)
Definition last_two := (option event * option event)%type.
Definition push_event (e : event) (l : last_two) : last_two := (Some e, fst l).
