(** The protobuf wire format, as far as written by crate [prost] for the messages the filter
    sends and exports (called from KF/services/dynamic.rs:70-72 and
    KF/services/dynamic/converters.rs:217-223).  Library behaviour, written from the
    protobuf encoding specification.  Simplification: no limit on lengths ([prost] and the
    specification stop at 2 GiB; [usize] has 32 bits on the deployed target). *)
From Coq Require Import String Ascii List NArith ZArith Bool.
From Verif Require Import Base.
Import ListNotations.
Open Scope list_scope.

(** base-128 variable-length numbers ([prost::encoding::encode_varint]) *)
Fixpoint varint_go (fuel : nat) (x : N) : text :=
  match fuel with
  | O => [ascii_of_N x]
  | S f => if N.ltb x 128 then [ascii_of_N x] else ascii_of_N (128 + x mod 128) :: varint_go f (x / 128)
  end.
Definition varint (x : N) : text := varint_go (N.size_nat x) x.

(** [k] bytes, least significant first ([f64::to_le_bytes] and the like) *)
Fixpoint le_bytes (k : nat) (x : N) : text :=
  match k with
  | O => []
  | S k' => ascii_of_N (x mod 256) :: le_bytes k' (x / 256)
  end.

(** fields: number, wire type, content *)
Definition tag (n wt : N) : text := varint (n * 8 + wt).
Definition var_field (n x : N) : text := tag n 0 ++ varint x.
Definition f64_field (n x : N) : text := tag n 1 ++ le_bytes 8 x.
Definition len_field (n : N) (s : text) : text := tag n 2 ++ varint (N.of_nat (List.length s)) ++ s.
Definition f32_field (n x : N) : text := tag n 5 ++ le_bytes 4 x.
