(** Model of the body parsers: KF/kuadrant/pipeline/tasks/store/body_parser.rs (BP),
    json_body_parser.rs (JB), sse_body_parser.rs (SB) and the extraction strategies of
    token_usage.rs (TU). *)
From Coq Require Import String List NArith ZArith Bool Ascii.
From Verif Require Import Base Value Headers AttrPath Ctx Sse.
Import ListNotations.
Open Scope list_scope.

(** [str::parse::<i64>]: optional sign, at least one digit, in range *)
Definition dec_i64 (s : text) : option Z :=
  let neg := match s with c :: _ => Ascii.eqb c "-"%char | [] => false end in
  let s' := match s with
            | c :: r => if Ascii.eqb c "-"%char || Ascii.eqb c "+"%char then r else s
            | [] => []
            end in
  match s' with
  | [] => None
  | _ => match dec_digits 0 s' with
         | Some n =>
             if neg then if (n <=? 9223372036854775808)%N then Some (- Z.of_N n)%Z else None
             else if (n <? 9223372036854775808)%N then Some (Z.of_N n) else None
         | None => None
         end
  end.

(** BP:14-34 [parse_json_scalar] *)
Definition json_scalar (E : env) (raw : text) : value :=
  if text_eqb raw (tx "null") then VNull
  else if text_eqb raw (tx "true") then VBool true
  else if text_eqb raw (tx "false") then VBool false
  else match dec_i64 raw with
       | Some z => VInt z
       | None => match dec_u64 raw with
                 | Some n => VUInt n
                 | None => match o_f64 E raw with
                           | Some b => VFloat b
                           | None => VString raw
                           end
                 end
       end.

(** JB:12-20 [JsonBodyParser]: [jp_fed] are the bytes given to the streaming parser,
    which with the fields determine its state. *)
Record jparser := mkJp {
  jp_fields : list text; jp_fed : text; jp_extracted : list (text * value);
  jp_consumed : N; jp_complete : bool }.

(** JB:23-69 [new] *)
Definition jp_new (E : env) (fields : list text) : option jparser :=
  if o_jnew E fields then Some (mkJp fields [] [] 0 false) else None.

(** JB:71-85 [finalize_extracted]: [None] if some matched field is not UTF-8 *)
Fixpoint extract_raw (E : env) (raw : list (text * text)) (acc : list (text * value))
  : option (list (text * value)) :=
  match raw with
  | [] => Some acc
  | (f, b) :: raw' => if utf8_valid b then extract_raw E raw' (tset f (json_scalar E b) acc) else None
  end.
Definition jp_extract (E : env) (p : jparser) : option jparser :=
  match extract_raw E (o_jraw E (jp_fields p) (jp_fed p)) (jp_extracted p) with
  | Some ex => Some (mkJp (jp_fields p) (jp_fed p) ex (jp_consumed p) (jp_complete p))
  | None => None
  end.

(** JB:109-134 [feed] *)
Definition jp_feed (E : env) (chunk : text) (p : jparser) : option jparser :=
  let n := (jp_consumed p + N.of_nat (length chunk))%N in
  if jp_complete p then Some (mkJp (jp_fields p) (jp_fed p) (jp_extracted p) n true)
  else
    let fed := jp_fed p ++ chunk in
    match o_jfeed E (jp_fields p) fed with
    | JDone => jp_extract E (mkJp (jp_fields p) fed (jp_extracted p) n true)
    | JMore => Some (mkJp (jp_fields p) fed (jp_extracted p) n false)
    | JError => None
    end.

(** JB:93-101 [finalize] *)
Definition jp_finalize (E : env) (p : jparser) : option jparser :=
  if o_jfinish E (jp_fields p) (jp_fed p) then jp_extract E p else None.

(** SB:128-134 [SseBodyParser] *)
Record sbparser := mkSb {
  sb_fields : list text; sb_parser : sparser; sb_last : last_two;
  sb_extracted : list (text * value); sb_complete : bool }.
(** SB:137-145 *)
Definition sb_new (fields : list text) : sbparser := mkSb fields sparser0 (None, None) [] false.
(** SB:195-210 [feed] *)
Definition sb_feed (chunk : text) (p : sbparser) : option sbparser :=
  if sb_complete p then Some p
  else match sse_parse chunk (sb_parser p) with
       | POk evs sp => Some (mkSb (sb_fields p) sp (fold_left (fun l e => push_event e l) evs (sb_last p))
                               (sb_extracted p) false)
       | PErr _ | PFuel => None
       end.
(** SB:175-184: value of one field of the JSON document *)
Definition sse_field_value (E : env) (j : json) : value :=
  match j with JStr s => VString s | other => json_scalar E (o_jshow E other) end.
(** SB:163-186 [finalize] *)
Definition sb_finalize (E : env) (p : sbparser) : option sbparser :=
  match snd (sb_last p) with
  | None => Some (mkSb (sb_fields p) (sb_parser p) (sb_last p) (sb_extracted p) true)
  | Some ev =>
      match o_json E (e_data ev) with
      | None => None
      | Some j =>
          let ex := fold_left (fun acc f => match o_pointer E j f with
                                            | Some v => tset f (sse_field_value E v) acc
                                            | None => acc
                                            end) (sb_fields p) (sb_extracted p) in
          Some (mkSb (sb_fields p) (sb_parser p) (sb_last p) ex true)
      end
  end.

(** BP:6-12: the trait object *)
Inductive bparser := BJson (p : jparser) | BSse (p : sbparser).
Definition bp_consumed (p : bparser) : N := match p with BJson p => jp_consumed p | BSse _ => 0 end.
Definition bp_feed (E : env) (chunk : text) (p : bparser) : option bparser :=
  match p with
  | BJson p => option_map BJson (jp_feed E chunk p)
  | BSse p => option_map BSse (sb_feed chunk p)
  end.
Definition bp_finalize (E : env) (p : bparser) : option bparser :=
  match p with
  | BJson p => option_map BJson (jp_finalize E p)
  | BSse p => option_map BSse (sb_finalize E p)
  end.
Definition bp_extracted (p : bparser) : list (text * value) :=
  match p with BJson p => jp_extracted p | BSse p => sb_extracted p end.
Definition bp_fields (p : bparser) : list text :=
  match p with BJson p => jp_fields p | BSse p => sb_fields p end.
(** JB:103-107, SB:188-193 [remaining_fields] *)
Definition bp_remaining (p : bparser) : list text :=
  filter (fun f => match tget f (bp_extracted p) with Some _ => false | None => true end) (bp_fields p).
(** JB:136-140, SB:212-216 [populate] *)
Definition bp_populate (p : bparser) (b : body) : body :=
  fold_left (fun b kv => set_value (fst kv) (snd kv) b) (bp_extracted p) b.

(** TU:133-196 extraction strategies.  The memo [parsed_json] is dropped: it is only
    filled at the end of the stream, after which the task is done. *)
Inductive strategy := StSse (p : sparser) (l : last_two) | StJson (buf : text).

(** TU:117-129 [select_strategy] *)
Definition is_sse_type (h : headers) : bool :=
  match h_get (tx "content-type") h with
  | Some ct => contains_sub (tx "text/event-stream") ct
  | None => false
  end.
Definition select_strategy (h : headers) : strategy :=
  if is_sse_type h then StSse sparser0 (None, None) else StJson [].

(** TU:158-164, 192-194 [feed_buffer]; a failed SSE parse is ignored *)
Definition st_feed (bytes : text) (s : strategy) : strategy :=
  match s with
  | StSse p l =>
      match sse_parse bytes p with
      | POk evs p' => StSse p' (fold_left (fun l e => push_event e l) evs l)
      | PErr p' => StSse p' l
      | PFuel => s
      end
  | StJson buf => StJson (buf ++ bytes)
  end.
(** TU:166-175, 196-205 [extract_property] *)
Definition st_extract (E : env) (f : text) (s : strategy) : option json :=
  let doc := match s with
             | StSse _ l => match snd l with Some e => o_json E (e_data e) | None => None end
             | StJson buf => if utf8_valid buf then o_json E buf else None
             end in
  match doc with Some j => o_pointer E j f | None => None end.

(** TU:84-104: JSON scalars to CEL values; others are skipped *)
Definition st_value (j : json) : option value :=
  match j with
  | JBool b => Some (VBool b)
  | JNum (JPos n) => Some (VUInt n)
  | JNum (JNeg z) => Some (VInt z)
  | JNum (JFloat b) => Some (VFloat b)
  | JStr s => Some (VString s)
  | JNull | JArr _ | JObj _ => None
  end.
Definition st_populate (E : env) (fields : list text) (s : strategy) (b : body) : body :=
  fold_left (fun b f => match st_extract E f s with
                        | Some j => match st_value j with Some v => set_value f v b | None => b end
                        | None => b
                        end) fields b.
