(** Model of KF/services/dynamic/converters.rs:217-284 (CO): the bytes under which a store
    action exports a value to the host, [MessageConverter::cel_value_to_bytes].
    [prost_types::{Value, Struct, ListValue}] are modelled with their wire format. *)
From Coq Require Import String Ascii List NArith ZArith Bool.
From Verif Require Import Base Value Wire.
Import ListNotations.
Open Scope list_scope.

(** [prost_types::Value] with its kind set; a [Struct] is a [BTreeMap], sorted by key *)
Inductive pv :=
| PvNull | PvNum (bits : N) | PvStr (s : text) | PvBool (b : bool)
| PvStruct (m : list (text * pv)) | PvList (l : list pv).

(** [BTreeMap::insert] *)
Fixpoint bt_insert {A} (k : text) (v : A) (m : list (text * A)) : list (text * A) :=
  match m with
  | [] => [(k, v)]
  | (k', v') :: m' =>
      if text_eqb k k' then (k, v) :: m'
      else if text_leb k k' then (k, v) :: m
      else (k', v') :: bt_insert k v m'
  end.

(** Rust's [i64 as f64] and [u64 as f64]: round to nearest, ties to even (IEEE 754
    binary64, as its bit pattern).  With [e] the exponent and [q] the mantissa
    including its leading one, the pattern is [(e + 1023) * 2^52 + (q - 2^52)]; a mantissa
    rounded up to 2^53 carries into the exponent. *)
Definition round_shift (m s : N) : N :=
  let q := (m / 2 ^ s)%N in
  let r := (m mod 2 ^ s)%N in
  let half := (2 ^ (s - 1))%N in
  if N.ltb half r then (q + 1)%N
  else if N.eqb r half then (if N.even q then q else q + 1)%N
  else q.
Definition f64_of_N (m : N) : N :=
  match m with
  | 0%N => 0%N
  | _ =>
      let e := N.log2 m in
      let q := if N.leb e 52 then (m * 2 ^ (52 - e))%N else round_shift m (e - 52) in
      ((e + 1023) * 2 ^ 52 + (q - 2 ^ 52))%N
  end.
Definition f64_of_Z (z : Z) : N :=
  match z with
  | Z0 => 0%N
  | Zpos p => f64_of_N (Npos p)
  | Zneg p => (2 ^ 63 + f64_of_N (Npos p))%N
  end.

(** [String::from_utf8_lossy]: every maximal invalid prefix of a character becomes U+FFFD *)
Definition replacement : text := utf8_char 65533.
Definition second_ok (a b : ascii) : bool :=
  is_cont b
  && (negb (N.eqb (bval a) 224) || N.leb 160 (bval b)) && (negb (N.eqb (bval a) 237) || N.leb (bval b) 159)
  && (negb (N.eqb (bval a) 240) || N.leb 144 (bval b)) && (negb (N.eqb (bval a) 244) || N.leb (bval b) 143).
Fixpoint utf8_lossy (s : text) : text :=
  match s with
  | [] => []
  | a :: s1 =>
      if N.ltb (bval a) 128 then a :: utf8_lossy s1
      else if in_rng 194 244 a then
        match s1 with
        | b :: s2 =>
            if second_ok a b then
              if in_rng 194 223 a then a :: b :: utf8_lossy s2
              else match s2 with
                   | c :: s3 =>
                       if is_cont c then
                         if in_rng 224 239 a then a :: b :: c :: utf8_lossy s3
                         else match s3 with
                              | d :: s4 => if is_cont d then a :: b :: c :: d :: utf8_lossy s4 else replacement ++ utf8_lossy s3
                              | [] => replacement
                              end
                       else replacement ++ utf8_lossy s2
                   | [] => replacement
                   end
            else replacement ++ utf8_lossy s1
        | [] => replacement
        end
      else replacement ++ utf8_lossy s1
  end.

(** [collect::<Result<Vec<_>, _>>] *)
Fixpoint all_ok {A} (l : list (option A)) : option (list A) :=
  match l with
  | [] => Some []
  | Some x :: l' => match all_ok l' with Some m => Some (x :: m) | None => None end
  | None :: _ => None
  end.

(** CO:225-256 [cel_to_prost_value], :258-284 [cel_to_prost_struct] *)
Fixpoint to_prost (v : value) : option pv :=
  match v with
  | VNull => Some PvNull
  | VFloat b => Some (PvNum b)
  | VInt z => Some (PvNum (f64_of_Z z))
  | VUInt n => Some (PvNum (f64_of_N n))
  | VString s => Some (PvStr s)
  | VBool b => Some (PvBool b)
  | VBytes s => Some (PvStr (utf8_lossy s))
  | VMap l =>
      match all_ok (map (fun kv => match fst kv with KStr k => option_map (pair k) (to_prost (snd kv)) | _ => None end) l) with
      | Some es => Some (PvStruct (fold_left (fun m kv => bt_insert (fst kv) (snd kv) m) es []))
      | None => None
      end
  | VList l => option_map PvList (all_ok (map to_prost l))
  | VStruct _ _ | VTimestamp _ | VDuration _ => None
  end.

(** [prost_types]' generated encodings: a oneof member is always written; a map entry leaves
    out an empty key *)
Definition entry_bytes (k : text) (v : text) : text :=
  len_field 1 ((match k with [] => [] | _ => len_field 1 k end) ++ len_field 2 v).
Fixpoint pv_bytes (v : pv) : text :=
  match v with
  | PvNull => var_field 1 0
  | PvNum b => f64_field 2 b
  | PvStr s => len_field 3 s
  | PvBool b => var_field 4 (if b then 1 else 0)
  | PvStruct m => len_field 5 (flat_map (fun kv => entry_bytes (fst kv) (pv_bytes (snd kv))) m)
  | PvList l => len_field 6 (flat_map (fun x => len_field 1 (pv_bytes x)) l)
  end.
Definition struct_bytes (m : list (text * pv)) : text := flat_map (fun kv => entry_bytes (fst kv) (pv_bytes (snd kv))) m.

(** CO:217-223 [cel_value_to_bytes]: a map is written as a [Struct], anything else as a [Value] *)
Definition value_bytes (v : value) : option text :=
  match v, to_prost v with
  | VMap _, Some (PvStruct m) => Some (struct_bytes m)
  | VMap _, _ => None
  | _, Some x => Some (pv_bytes x)
  | _, None => None
  end.
