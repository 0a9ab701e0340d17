(** The wire format of service messages: crate [prost_reflect], [DynamicMessage::encode_to_vec]
    (called from KF/services/dynamic.rs:70-72) and [DynamicMessage::decode] (KF/services/dynamic.rs:159-161).
    Library behaviour, written from the protobuf encoding specification and the documentation of
    [prost] and [prost_reflect]; the fields of messages are those of Conv.v.  Left out: groups, which
    are errors here, unknown fields, which are skipped rather than kept, and the limit on lengths. *)
From Coq Require Import String Ascii List NArith ZArith Bool.
From Verif Require Import Base Conv Wire.
Import ListNotations.
Open Scope list_scope.

(** The numbers of the fields of messages, the depth at which [prost] stops reading (100), and
    whether the negative zero counts as the default of number fields ([Value]'s equality is that of floats) *)
Record wenv := mkWenv { w_number : text -> text -> N; w_depth : nat; w_negzero : bool }.

Definition two32 : Z := 4294967296.
Definition two64 : Z := 18446744073709551616.
(** Rust's [as u32], [as u64] of signed numbers, and back *)
Definition u_of (m z : Z) : N := Z.to_N (z mod m).
Definition s_of (m : Z) (n : N) : Z := let z := (Z.of_N n mod m)%Z in if Z.ltb z (m / 2) then z else (z - m)%Z.
(** [prost::encoding]: sint32 and sint64 *)
Definition zigzag (z : Z) : N := if Z.ltb z 0 then Z.to_N (- 2 * z - 1) else Z.to_N (2 * z).
Definition unzigzag (n : N) : Z := if N.even n then Z.of_N (n / 2) else (- Z.of_N (n / 2) - 1)%Z.

(** * Writing *)
Definition packable (k : fkind) : bool := match k with FString | FBytes | FMsg _ => false | _ => true end.
(** number kinds, by the way they are written *)
Inductive wnum := NVar (x : N) | N32 (x : N) | N64 (x : N).
Definition number_of (k : fkind) (v : pval) : wnum :=
  match k, v with
  | _, PBool b => NVar (if b then 1 else 0)
  | FSint32, PI32 z | FSint64, PI64 z => NVar (zigzag z)
  | FSfixed32, PI32 z => N32 (u_of two32 z)
  | FSfixed64, PI64 z => N64 (u_of two64 z)
  | _, PI32 z | _, PI64 z | _, PEnum z => NVar (u_of two64 z)
  | FFixed32, PU32 n => N32 n
  | FFixed64, PU64 n => N64 n
  | _, PU32 n | _, PU64 n => NVar n
  | _, PF32 b => N32 b
  | _, PF64 b => N64 b
  | _, _ => NVar 0
  end.
Definition num_bytes (x : wnum) : text := match x with NVar x => varint x | N32 x => le_bytes 4 x | N64 x => le_bytes 8 x end.
Definition num_field (n : N) (x : wnum) : text := match x with NVar x => var_field n x | N32 x => f32_field n x | N64 x => f64_field n x end.
Definition scalar_field (k : fkind) (n : N) (v : pval) : text :=
  match v with
  | PStr s | PBytes s => len_field n s
  | _ => num_field n (number_of k v)
  end.

(** [Value::is_default] *)
Definition is_default (W : wenv) (f : fdesc) (v : pval) : bool :=
  match v with
  | PBool b => negb b
  | PI32 z | PI64 z => Z.eqb z 0
  | PU32 n | PU64 n => N.eqb n 0
  | PF32 b => N.eqb b 0 || (w_negzero W && N.eqb b 2147483648)
  | PF64 b => N.eqb b 0 || (w_negzero W && N.eqb b 9223372036854775808)
  | PStr s | PBytes s => match s with [] => true | _ => false end
  | PEnum z => match fd_kind f with FEnum l => Z.eqb z (hd 0%Z l) | _ => false end
  | PList [] | PMap [] => true
  | _ => false
  end.
Definition skipped (W : wenv) (f : fdesc) (v : pval) : bool := negb (supports_presence f) && is_default W f v.

(** fields are kept by number *)
Fixpoint ins_num {A} (x : N * A) (l : list (N * A)) : list (N * A) :=
  match l with
  | [] => [x]
  | y :: l' => if N.leb (fst x) (fst y) then x :: l else y :: ins_num x l'
  end.
Definition sort_num {A} (l : list (N * A)) : list (N * A) := fold_right ins_num [] l.

Definition key_val (k : pkey) : pval :=
  match k with MBool b => PBool b | MI32 z => PI32 z | MI64 z => PI64 z | MU32 n => PU32 n | MU64 n => PU64 n | MStr s => PStr s end.

(** one field of number [n], unless left out *)
Fixpoint put (W : wenv) (p : schema) (f : fdesc) (n : N) (v : pval) {struct v} : text :=
  match v with
  | PMsg name fs =>
      len_field n
        (match lookup p name with
         | None => []
         | Some d =>
             concat (map snd (sort_num (map (fun kv =>
               (w_number W name (fst kv),
                match field_by_name d (fst kv) with
                | Some g => if skipped W g (snd kv) then [] else put W p g (w_number W name (fst kv)) (snd kv)
                | None => []
                end)) fs)))
         end)
  | PList l =>
      if packable (fd_kind f) then
        match l with [] => [] | _ => len_field n (flat_map (fun x => num_bytes (number_of (fd_kind f) x)) l) end
      else flat_map (fun x => put W p f n x) l
  | PMap l =>
      match fd_kind f with
      | FMsg e =>
          match lookup p e with
          | Some d =>
              match field_by_name d (tx "key"), field_by_name d (tx "value") with
              | Some kf, Some vf =>
                  flat_map (fun kv =>
                    len_field n ((if skipped W kf (key_val (fst kv)) then [] else scalar_field (fd_kind kf) (w_number W e (tx "key")) (key_val (fst kv)))
                                 ++ (if skipped W vf (snd kv) then [] else put W p vf (w_number W e (tx "value")) (snd kv)))) l
              | _, _ => []
              end
          | None => []
          end
      | _ => []
      end
  | _ => scalar_field (fd_kind f) n v
  end.
(** the fields of a message of type [d] *)
Definition put_fields (W : wenv) (p : schema) (d : mdesc) (fs : list (text * pval)) : text :=
  concat (map snd (sort_num (map (fun kv =>
    (w_number W (md_name d) (fst kv),
     match field_by_name d (fst kv) with
     | Some g => if skipped W g (snd kv) then [] else put W p g (w_number W (md_name d) (fst kv)) (snd kv)
     | None => []
     end)) fs))).
(** [DynamicMessage::encode_to_vec] *)
Definition write_message (W : wenv) (p : schema) (n : text) (fs : list (text * pval)) : text :=
  match lookup p n with Some d => put_fields W p d fs | None => [] end.

(** * Reading *)
(** [decode_varint]: at most ten bytes, 64 bits *)
Fixpoint get_varint (k : nat) (s : text) : option (N * text) :=
  match k, s with
  | S k', a :: s' =>
      if N.ltb (bval a) 128 then Some (bval a, s')
      else match get_varint k' s' with Some (x, r) => Some (bval a - 128 + 128 * x, r)%N | None => None end
  | _, _ => None
  end.
Definition take_varint (s : text) : option (N * text) :=
  match get_varint 10 s with Some (x, r) => if N.ltb x (Z.to_N two64) then Some (x, r) else None | None => None end.
Fixpoint take_le (k : nat) (s : text) : option (N * text) :=
  match k, s with
  | O, _ => Some (0%N, s)
  | S k', a :: s' => match take_le k' s' with Some (x, r) => Some (bval a + 256 * x, r)%N | None => None end
  | S _, [] => None
  end.
Definition take_len (s : text) : option (text * text) :=
  match take_varint s with
  | Some (n, r) => if N.leb n (N.of_nat (List.length r)) then Some (firstn (N.to_nat n) r, skipn (N.to_nat n) r) else None
  | None => None
  end.
Inductive content := CNum (x : wnum) | CLen (s : text).
(** [decode_key] and the content by wire type *)
Definition take_field (s : text) : option (N * content * text) :=
  match take_varint s with
  | Some (t, r) =>
      if (N.ltb t 8 || N.ltb 4294967295 t)%bool then None
      else
        let wt := (t mod 8)%N in
        let is c := option_map (fun xr => ((t / 8)%N, c (fst xr), snd xr)) in
        if N.eqb wt 0 then is (fun x => CNum (NVar x)) (take_varint r)
        else if N.eqb wt 1 then is (fun x => CNum (N64 x)) (take_le 8 r)
        else if N.eqb wt 2 then option_map (fun xr => ((t / 8)%N, CLen (fst xr), snd xr)) (take_len r)
        else if N.eqb wt 5 then is (fun x => CNum (N32 x)) (take_le 4 r)
        else None
  | None => None
  end.
Fixpoint take_fields (fuel : nat) (s : text) : option (list (N * content)) :=
  match s, fuel with
  | [], _ => Some []
  | _, O => None
  | _, S f => match take_field s with Some (n, c, r) => option_map (cons (n, c)) (take_fields f r) | None => None end
  end.
Definition contents (s : text) : option (list (N * content)) := take_fields (List.length s) s.

(** the wire type of a number kind must be the expected one *)
Definition as_number (k : fkind) (x : wnum) : option pval :=
  match k, x with
  | FBool, NVar x => Some (PBool (negb (N.eqb x 0)))
  | FInt32, NVar x => Some (PI32 (s_of two32 x))
  | FSint32, NVar x => Some (PI32 (unzigzag (x mod Z.to_N two32)))
  | FSfixed32, N32 x => Some (PI32 (s_of two32 x))
  | FInt64, NVar x => Some (PI64 (s_of two64 x))
  | FSint64, NVar x => Some (PI64 (unzigzag x))
  | FSfixed64, N64 x => Some (PI64 (s_of two64 x))
  | FUint32, NVar x => Some (PU32 (x mod Z.to_N two32))
  | FFixed32, N32 x => Some (PU32 x)
  | FUint64, NVar x => Some (PU64 x)
  | FFixed64, N64 x => Some (PU64 x)
  | FFloat, N32 x => Some (PF32 x)
  | FDouble, N64 x => Some (PF64 x)
  | FEnum _, NVar x => Some (PEnum (s_of two32 x))
  | _, _ => None
  end.
Definition as_scalar (k : fkind) (c : content) : option pval :=
  match k, c with
  | FString, CLen s => if utf8_valid s then Some (PStr s) else None
  | FBytes, CLen s => Some (PBytes s)
  | _, CNum x => as_number k x
  | _, _ => None
  end.
Definition take_number (k : fkind) (s : text) : option (pval * text) :=
  let go (r : option (N * text)) c := match r with Some (x, r) => match as_number k (c x) with Some v => Some (v, r) | None => None end | None => None end in
  match k with
  | FSfixed32 | FFixed32 | FFloat => go (take_le 4 s) N32
  | FSfixed64 | FFixed64 | FDouble => go (take_le 8 s) N64
  | _ => go (take_varint s) NVar
  end.
Fixpoint take_packed (fuel : nat) (k : fkind) (s : text) : option (list pval) :=
  match s, fuel with
  | [], _ => Some []
  | _, O => None
  | _, S f => match take_number k s with Some (v, r) => option_map (cons v) (take_packed f k r) | None => None end
  end.

Definition val_key (v : pval) : option pkey :=
  match v with
  | PBool b => Some (MBool b) | PI32 z => Some (MI32 z) | PI64 z => Some (MI64 z)
  | PU32 n => Some (MU32 n) | PU64 n => Some (MU64 n) | PStr s => Some (MStr s) | _ => None
  end.
(** what a field that is not set reads as, singular messages included *)
Definition unset (p : schema) (f : fdesc) : option pval :=
  match default_of p f with
  | Some v => Some v
  | None => match fd_kind f with FMsg n => Some (PMsg n []) | _ => None end
  end.
Definition old_list (v : option pval) : list pval := match v with Some (PList l) => l | _ => [] end.
Definition old_map (v : option pval) : list (pkey * pval) := match v with Some (PMap l) => l | _ => [] end.
Definition old_msg (v : option pval) : list (text * pval) := match v with Some (PMsg _ fs) => fs | _ => [] end.

(** [DynamicMessage::merge_field], for all the fields of a message in turn *)
Fixpoint get_fields (W : wenv) (p : schema) (depth : nat) (d : mdesc) (cs : list (N * content)) (m : list (text * pval)) {struct depth} : option (list (text * pval)) :=
  match depth with
  | O => None
  | S depth' =>
      let message n s (old : list (text * pval)) : option pval :=
        match lookup p n, contents s with
        | Some d', Some cs' => option_map (PMsg n) (get_fields W p depth' d' cs' old)
        | _, _ => None
        end in
      let single (f : fdesc) c old : option pval :=
        match fd_kind f, c with
        | FMsg n, CLen s => message n s (old_msg old)
        | FMsg _, _ => None
        | k, c => as_scalar k c
        end in
      let entry e s : option (pkey * pval) :=
        match lookup p e, message e s [] with
        | Some d', Some (PMsg _ fs) =>
            match field_by_name d' (tx "key"), field_by_name d' (tx "value") with
            | Some kf, Some vf =>
                match (match tget (tx "key") fs with Some k => Some k | None => unset p kf end),
                      (match tget (tx "value") fs with Some v => Some v | None => unset p vf end) with
                | Some k, Some v => option_map (fun k => (k, v)) (val_key k)
                | _, _ => None
                end
            | _, _ => None
            end
        | _, _ => None
        end in
      let field f c old : option pval :=
        if is_map p f then
          match fd_kind f, c with
          | FMsg e, CLen s => option_map (fun kv => PMap (aset pkey_eqb (fst kv) (snd kv) (old_map old))) (entry e s)
          | _, _ => None
          end
        else if fd_repeated f then
          match packable (fd_kind f), c with
          | true, CLen s => option_map (fun l => PList (old_list old ++ l)) (take_packed (List.length s) (fd_kind f) s)
          | _, _ => option_map (fun v => PList (old_list old ++ [v])) (single f c None)
          end
        else single f c old in
      (fix go (cs : list (N * content)) (m : list (text * pval)) {struct cs} : option (list (text * pval)) :=
         match cs with
         | [] => Some m
         | (n, c) :: cs' =>
             match find (fun f => N.eqb (w_number W (md_name d) (fd_name f)) n) (md_fields d) with
             | None => go cs' m
             | Some f => match field f c (tget (fd_name f) m) with Some v => go cs' (set_field d f v m) | None => None end
             end
         end) cs m
  end.
(** [DynamicMessage::decode] *)
Definition read_message (W : wenv) (p : schema) (n : text) (s : text) : option (list (text * pval)) :=
  match lookup p n, contents s with
  | Some d, Some cs => get_fields W p (w_depth W) d cs []
  | _, _ => None
  end.
