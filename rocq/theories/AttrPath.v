(** Model of KF/data/attribute.rs (paths and typed decoding) and of the pure string
    parts of KF/kuadrant/context.rs and KF/data/grpc.rs. *)
From Coq Require Import String List NArith ZArith Bool Ascii.
From Verif Require Import Base.
Import ListNotations.
Open Scope list_scope.

Definition dot : ascii := "."%char.
Definition backslash : ascii := "\"%char.
Definition colon : ascii := ":"%char.

(** attribute.rs:170-173 [Path] *)
Definition path := list text.

(** attribute.rs:182 [t.replace('.', "\\.")] *)
Fixpoint esc_dots (s : text) : text :=
  match s with
  | [] => []
  | c :: s' => if Ascii.eqb c dot then backslash :: dot :: esc_dots s' else c :: esc_dots s'
  end.

(** attribute.rs:175-187 [Display for Path] *)
Definition path_show (p : path) : text := join [dot] (map esc_dots p).

(** attribute.rs:195-218 [From<&str> for Path]; [tok] is the token being built. *)
Fixpoint path_parse_from (tok : text) (s : text) : path :=
  match s with
  | [] => [tok]
  | c :: s' =>
      if Ascii.eqb c dot then tok :: path_parse_from [] s'
      else if Ascii.eqb c backslash then
        match s' with
        | [] => [tok]
        | d :: s'' => path_parse_from (tok ++ [d]) s''
        end
      else path_parse_from (tok ++ [c]) s'
  end.
Definition path_parse (s : text) : path := path_parse_from [] s.

(** attribute.rs:231-235 [wasm_prop] *)
Definition wasm_prop (tokens : list text) : path :=
  path_parse (tx "filter_state.wasm\.kuadrant\." ++ join [backslash; dot] tokens).

(** context.rs:186-195: host path of a stored attribute. *)
Definition kuadrant_host_path (p : path) : path :=
  path_parse (tx "kuadrant" ++ [backslash; dot] ++ join [backslash; dot] p).

(** [split(c)[0]] / [split_once(c)]: the text before the first [c]. *)
Fixpoint before_char (c : ascii) (s : text) : text :=
  match s with
  | [] => []
  | x :: s' => if Ascii.eqb x c then [] else x :: before_char c s'
  end.

(** context.rs:240-241: [source_address.split(':')[0]] *)
Definition strip_port (addr : text) : text := before_char colon addr.

(** grpc.rs:2-4 *)
Definition is_grpc_content_type (ct : text) : bool := starts_with (tx "application/grpc") ct.

(** [str::split_once(c)] *)
Fixpoint split_once (c : ascii) (s : text) : option (text * text) :=
  match s with
  | [] => None
  | x :: s' => if Ascii.eqb x c then Some ([], s')
               else option_map (fun ab => (x :: fst ab, snd ab)) (split_once c s')
  end.

(** grpc.rs:8-15 *)
Definition parse_grpc_path (p : text) : option (text * text) :=
  match p with
  | c :: trimmed =>
      if Ascii.eqb c "/"%char then
        match split_once "/"%char trimmed with
        | Some (service, method) =>
            match service, method with
            | [], _ | _, [] => None
            | _, _ => if existsb (Ascii.eqb "/"%char) method then None else Some (service, method)
            end
        | None => None
        end
      else None
  | [] => None
  end.

(** Little-endian decoding, [u64::from_le_bytes]. *)
Fixpoint le_N (bs : text) : N :=
  match bs with
  | [] => 0
  | b :: bs' => bval b + 256 * le_N bs'
  end%N.

(** attribute.rs:96-106 *)
Definition parse_u64 (bs : text) : option N := if Nat.eqb (length bs) 8 then Some (le_N bs) else None.
(** attribute.rs:84-94: two's complement *)
Definition parse_i64 (bs : text) : option Z :=
  if Nat.eqb (length bs) 8 then
    let n := le_N bs in
    Some (if N.ltb n 9223372036854775808 then Z.of_N n else Z.of_N n - 18446744073709551616)%Z
  else None.
(** attribute.rs:108-118: the bit pattern *)
Definition parse_f64 (bs : text) : option N := parse_u64 bs.
(** attribute.rs:126-136 *)
Definition parse_bool (bs : text) : option bool :=
  match bs with
  | [b] => Some (N.odd (bval b))
  | _ => None
  end.
(** attribute.rs:74-82 *)
Definition parse_string (bs : text) : option text := if utf8_valid bs then Some bs else None.
(** attribute.rs:138-151: nanoseconds *)
Definition parse_timestamp (bs : text) : option Z := parse_i64 bs.
