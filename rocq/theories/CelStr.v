(** Model of the CEL string functions: KF/data/cel/strings.rs (ST).  The extractors of the
    [cel] crate reject a receiver or a first argument of the wrong type before the function is
    called; the model answers [SErr] there.  [usize] is that of the deployed target, wasm32. *)
From Coq Require Import String List NArith ZArith Bool Ascii.
From Verif Require Import Base Value.
Import ListNotations.
Open Scope list_scope.

(** A result, a CEL error, or a panic *)
Inductive sres := SOk (v : value) | SErr | SPanic.

(** [i64 as usize], [u64 as usize] with 32 bits *)
Definition usize_bits : N := 4294967296.
Definition usize_of_i64 (z : Z) : N := Z.to_N (Z.modulo z 4294967296).
Definition usize_of_u64 (n : N) : N := N.modulo n usize_bits.
Definition as_usize (v : value) : option N :=
  match v with VInt z => Some (usize_of_i64 z) | VUInt n => Some (usize_of_u64 n) | _ => None end.

(** [str::chars]: a [String] is valid UTF-8 *)
Definition chars (s : text) : list N := match utf8_decode s with Some cs => cs | None => [] end.
(** [Iterator::skip], [take], [nth] *)
Fixpoint nskip {A} (n : N) (l : list A) : list A :=
  match l with [] => [] | _ :: l' => if N.eqb n 0 then l else nskip (N.pred n) l' end.
Fixpoint ntake {A} (n : N) (l : list A) : list A :=
  match l with [] => [] | a :: l' => if N.eqb n 0 then [] else a :: ntake (N.pred n) l' end.
Fixpoint nnth {A} (n : N) (l : list A) : option A :=
  match l with [] => None | a :: l' => if N.eqb n 0 then Some a else nnth (N.pred n) l' end.

(** [str::find], [str::rfind] with a string pattern: byte offsets *)
Fixpoint str_find (p s : text) : option nat :=
  if starts_with p s then Some 0
  else match s with [] => None | _ :: s' => option_map S (str_find p s') end.
Fixpoint str_rfind (p s : text) : option nat :=
  match s with
  | [] => match p with [] => Some 0 | _ => None end
  | _ :: s' => match str_rfind p s' with
               | Some i => Some (S i)
               | None => if starts_with p s then Some 0 else None
               end
  end.
(** [str::is_char_boundary] of an offset inside the string *)
Definition boundary (s : text) (i : N) : bool :=
  match nnth i s with Some a => negb (is_cont a) | None => true end.

(** [str::split] ([k = None]) and [str::splitn] ([k = Some n]: [n] more cuts) with a pattern
    that is not empty; [skip] bytes of the last match are still to be passed over, [cur] is
    the piece so far *)
Fixpoint split_ne (p : text) (k : option N) (skip : nat) (cur s : text) : list text :=
  match s with
  | [] => [cur]
  | a :: s' =>
      match skip with
      | S j => split_ne p k j cur s'
      | O =>
          match k with
          | Some 0%N => [cur ++ s]
          | _ => if starts_with p s then cur :: split_ne p (option_map N.pred k) (length p - 1) [] s'
                 else split_ne p k 0 (cur ++ [a]) s'
          end
      end
  end.
(** the empty pattern matches before and after each character *)
Fixpoint split_chars (k : option N) (cs : list N) : list text :=
  match k with
  | Some 0%N => [utf8_encode cs]
  | _ => match cs with
         | [] => [[]]
         | c :: cs' => utf8_char c :: split_chars (option_map N.pred k) cs'
         end
  end.
Definition str_pieces (p : text) (k : option N) (s : text) : list text :=
  match p with
  | [] => match k with Some 0%N => [s] | _ => [] :: split_chars (option_map N.pred k) (chars s) end
  | _ => split_ne p k 0 [] s
  end.
Definition str_split (p s : text) : list text := str_pieces p None s.
Definition str_splitn (n : N) (p s : text) : list text :=
  if N.eqb n 0 then [] else str_pieces p (Some (N.pred n)) s.
(** [str::replace], [str::replacen]: each match becomes [to] *)
Definition str_replace (p to s : text) : text := join to (str_pieces p None s).
Definition str_replacen (p to : text) (n : N) (s : text) : text := join to (str_pieces p (Some n) s).

(** [str::trim]: Unicode White_Space *)
Definition is_space (c : N) : bool :=
  ((9 <=? c) && (c <=? 13) || (c =? 32) || (c =? 133) || (c =? 160) || (c =? 5760)
   || ((8192 <=? c) && (c <=? 8202)) || (c =? 8232) || (c =? 8233) || (c =? 8239) || (c =? 8287) || (c =? 12288))%N.
Fixpoint trim_start (cs : list N) : list N :=
  match cs with c :: cs' => if is_space c then trim_start cs' else cs | [] => [] end.
Definition trim_chars (cs : list N) : list N := rev (trim_start (rev (trim_start cs))).

(** [u8::to_ascii_lowercase], [to_ascii_uppercase] *)
Definition lower_byte (a : ascii) : ascii := if in_rng 65 90 a then ascii_of_N (bval a + 32) else a.
Definition upper_byte (a : ascii) : ascii := if in_rng 97 122 a then ascii_of_N (bval a - 32) else a.

(** ST:5-13 *)
Definition s_char_at (this : text) (args : list value) : sres :=
  match args with
  | [VInt i] => match nnth (usize_of_i64 i) (chars this) with
                | Some c => SOk (VString (utf8_char c))
                | None => SErr
                end
  | _ => SErr
  end.
Definition minus_one : value := VInt (-1).
(** ST:15-52 *)
Definition s_index_of (this : text) (args : list value) : sres :=
  match args with
  | [VString p] => SOk (match str_find p this with None => minus_one | Some i => VUInt (N.of_nat i) end)
  | [VString p; b] =>
      match as_usize b with
      | None => SErr
      | Some base =>
          if (N.of_nat (length this) <=? base)%N then SOk minus_one
          else if negb (boundary this base) then SPanic
          else SOk (match str_find p (nskip base this) with
                    | None => minus_one
                    | Some i => VUInt (base + N.of_nat i)
                    end)
      end
  | _ => SErr
  end.
(** ST:54-91 *)
Definition s_last_index_of (this : text) (args : list value) : sres :=
  match args with
  | [VString p] => SOk (match str_rfind p this with None => minus_one | Some i => VUInt (N.of_nat i) end)
  | [VString p; b] =>
      match as_usize b with
      | None => SErr
      | Some base =>
          if (N.of_nat (length this) <=? base)%N then SOk minus_one
          else if negb (boundary this base) then SPanic
          else SOk (match str_rfind p (nskip base this) with
                    | None => minus_one
                    | Some i => VUInt (N.of_nat i)
                    end)
      end
  | _ => SErr
  end.
(** ST:93-117 *)
Definition as_string (v : value) : option text := match v with VString s => Some s | _ => None end.
Fixpoint all_strings (l : list value) : option (list text) :=
  match l with
  | [] => Some []
  | v :: l' => match as_string v, all_strings l' with Some s, Some r => Some (s :: r) | _, _ => None end
  end.
Definition s_join (this : list value) (args : list value) : sres :=
  let sep := match args with [] => Some [] | v :: _ => as_string v end in
  match sep, all_strings this with
  | Some sep, Some l => SOk (VString (join sep l))
  | _, _ => SErr
  end.
(** ST:119-129 *)
Definition s_lower (this : text) : sres := SOk (VString (map lower_byte this)).
Definition s_upper (this : text) : sres := SOk (VString (map upper_byte this)).
Definition s_trim (this : text) : sres := SOk (VString (utf8_encode (trim_chars (chars this)))).
(** ST:131-178 *)
Definition s_replace (this : text) (args : list value) : sres :=
  match args with
  | [VString p; VString to] => SOk (VString (str_replace p to this))
  | [VString p; VString to; n] => match as_usize n with Some n => SOk (VString (str_replacen p to n this)) | None => SErr end
  | _ => SErr
  end.
(** ST:180-224 *)
Definition s_split (this : text) (args : list value) : sres :=
  match args with
  | [VString p] => SOk (VList (map VString (str_split p this)))
  | [VString p; n] => match as_usize n with Some n => SOk (VList (map VString (str_splitn n p this))) | None => SErr end
  | _ => SErr
  end.
(** ST:226-275 *)
Definition s_substring (this : text) (args : list value) : sres :=
  let go (start fin : option N) : sres :=
    match start, fin with
    | Some s, Some e => if (e <? s)%N then SErr
                        else SOk (VString (utf8_encode (ntake (e - s) (nskip s (chars this)))))
    | _, _ => SErr
    end in
  match args with
  | [a] => go (as_usize a) (Some (N.of_nat (length (chars this))))
  | [a; b] => go (as_usize a) (as_usize b)
  | _ => SErr
  end.
