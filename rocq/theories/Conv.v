(** Model of KF/services/dynamic/converters.rs (CO): protobuf schemas, the registration of
    CEL struct types, and the conversion between CEL values and dynamic messages.

    Of the crate [prost_reflect] we model: a descriptor pool as a list of message
    descriptors, [DynamicMessage] as the list of its set fields, [get_field] (the value
    or the kind's default), [set_field] (which clears the other members of a oneof)
    and [supports_presence].  The wire format is in Proto.v.  Field numbers are
    replaced by field names (both are unique in a message). Errors carry no text. *)
From Coq Require Import String List NArith ZArith Bool.
From Verif Require Import Base Value.
Import ListNotations.
Open Scope list_scope.

(** * Schemas ([prost_reflect::{MessageDescriptor, FieldDescriptor, Kind}]) *)
Inductive fkind :=
| FBool | FInt32 | FSint32 | FSfixed32 | FInt64 | FSint64 | FSfixed64
| FUint32 | FFixed32 | FUint64 | FFixed64 | FFloat | FDouble | FString | FBytes
| FEnum (numbers : list Z)   (** the numbers the enum declares, default first *)
| FMsg (name : text).

(** [fd_explicit]: proto2, proto3 [optional] or a oneof member;
    [fd_oneof]: the oneof the field belongs to, if any *)
Record fdesc := mkF { fd_name : text; fd_kind : fkind; fd_repeated : bool; fd_explicit : bool; fd_oneof : option N }.
Record mdesc := mkM { md_name : text; md_fields : list fdesc; md_entry : bool }.
Definition schema := list mdesc.

Fixpoint lookup (p : schema) (n : text) : option mdesc :=
  match p with
  | [] => None
  | d :: p' => if text_eqb (md_name d) n then Some d else lookup p' n
  end.

(** [MessageDescriptor::get_field_by_name] *)
Definition field_by_name (d : mdesc) (n : text) : option fdesc := find (fun f => text_eqb (fd_name f) n) (md_fields d).

(** [FieldDescriptor::supports_presence]: always for singular messages *)
Definition supports_presence (f : fdesc) : bool :=
  negb (fd_repeated f) && (fd_explicit f || match fd_oneof f with Some _ => true | None => false end || match fd_kind f with FMsg _ => true | _ => false end).

(** CO:50-59 [is_map_field] *)
Definition is_map (p : schema) (f : fdesc) : bool :=
  fd_repeated f && match fd_kind f with
                   | FMsg n => match lookup p n with Some d => md_entry d | None => false end
                   | _ => false
                   end.

(** * Registration of struct types *)

(** [cel::common::types::Type], as far as used *)
Inductive ctype := CBool | CInt | CUInt | CDouble | CString | CBytes | CTimestamp | CList | CMap | CStruct (name : text).
Definition structdef := (text * list (text * ctype))%type.

Definition t_timestamp := tx "google.protobuf.Timestamp".
Definition t_struct := tx "google.protobuf.Struct".
Definition t_value := tx "google.protobuf.Value".
Definition t_list := tx "google.protobuf.ListValue".

(** CO:113-143 [protobuf_kind_to_cel_type] *)
Definition kind_type (k : fkind) : ctype :=
  match k with
  | FBool => CBool
  | FInt32 | FSint32 | FSfixed32 | FInt64 | FSint64 | FSfixed64 => CInt
  | FUint32 | FFixed32 | FUint64 | FFixed64 => CUInt
  | FFloat | FDouble => CDouble
  | FString => CString
  | FBytes => CBytes
  | FMsg n => if text_eqb n t_timestamp then CTimestamp else CStruct n
  | FEnum _ => CInt
  end.

(** CO:95-111 [to_struct_def] *)
Definition to_struct_def (p : schema) (d : mdesc) : structdef :=
  (md_name d, map (fun f => (fd_name f, if is_map p f then CMap else if fd_repeated f then CList else kind_type (fd_kind f))) (md_fields d)).

(** CO:66-92 [collect_struct_defs].  [todo] is the stack, top first; descriptors are
    passed around by name.  The loop carries fuel; [collect_struct_defs] starts it with
    one more than the number of pushes possible (Prop_Conv proves this is enough).
    A name missing from the pool cannot occur in [prost_reflect]: [None]. *)
Definition msg_kinds (d : mdesc) : list text :=
  flat_map (fun f => match fd_kind f with FMsg n => [n] | _ => [] end) (md_fields d).
Fixpoint collect (p : schema) (fuel : nat) (todo visited : list text) (defs : list structdef) : option (list structdef) :=
  match todo with
  | [] => Some defs
  | n :: todo' =>
      match fuel with
      | O => None
      | S fuel' =>
          if mem_text n visited then collect p fuel' todo' visited defs
          else match lookup p n with
               | None => None
               | Some d =>
                   collect p fuel' (rev (msg_kinds d) ++ todo') (n :: visited)
                           (if md_entry d then defs else defs ++ [to_struct_def p d])
               end
      end
  end.
Definition pushes (p : schema) : nat := fold_right (fun d n => List.length (msg_kinds d) + n) 0 p.
Definition collect_struct_defs (p : schema) (n : text) : option (list structdef) := collect p (S (pushes p)) [n] [] [].

(** * Dynamic messages *)
Inductive pkey := MBool (b : bool) | MI32 (z : Z) | MI64 (z : Z) | MU32 (n : N) | MU64 (n : N) | MStr (s : text).
Inductive pval :=
| PBool (b : bool) | PI32 (z : Z) | PI64 (z : Z) | PU32 (n : N) | PU64 (n : N) | PF32 (bits : N) | PF64 (bits : N)
| PStr (s : text) | PBytes (s : text) | PEnum (z : Z)
| PMsg (name : text) (fields : list (text * pval)) | PList (l : list pval) | PMap (l : list (pkey * pval)).

Definition pkey_eqb (a b : pkey) : bool :=
  match a, b with
  | MBool x, MBool y => Bool.eqb x y
  | MI32 x, MI32 y | MI64 x, MI64 y => Z.eqb x y
  | MU32 x, MU32 y | MU64 x, MU64 y => N.eqb x y
  | MStr x, MStr y => text_eqb x y
  | _, _ => false
  end.

(** Rust's [as i32], [as u32] on 64-bit numbers *)
Definition as_i32 (z : Z) : Z := ((z + 2147483648) mod 4294967296 - 2147483648)%Z.
Definition as_u32 (n : N) : N := (n mod 4294967296)%N.
Definition i32_as_u32 (z : Z) : N := Z.to_N (z mod 4294967296)%Z.

(** Library behaviour left open: [f64 as f32] for finite numbers in range ([None] when
    CO:577-587 refuses), [f32 as f64], [chrono::DateTime::from_timestamp] (the instant
    in nanoseconds). *)
Record cenv := mkCenv { cv_narrow : N -> option N; cv_widen : N -> N; cv_time : Z -> N -> option Z }.

(** [DynamicMessage::set_field] on the set fields of a message of type [d] *)
Definition set_field (d : mdesc) (f : fdesc) (v : pval) (fs : list (text * pval)) : list (text * pval) :=
  let other g := match fd_oneof f, fd_oneof g with
                 | Some a, Some b => N.eqb a b && negb (text_eqb (fd_name f) (fd_name g))
                 | _, _ => false
                 end in
  tset (fd_name f) v (fold_left (fun m g => if other g then adel text_eqb (fd_name g) m else m) (md_fields d) fs).

(** CO:474-514 [cel_map_key_to_proto] *)
Definition key_to_proto (k : mkey) (kind : fkind) : option pkey :=
  match k with
  | KBool b => Some (MBool b)
  | KInt z => match kind with
              | FInt32 | FSint32 | FSfixed32 => Some (MI32 (as_i32 z))
              | FInt64 | FSint64 | FSfixed64 => Some (MI64 z)
              | _ => None
              end
  | KUInt n => match kind with
               | FUint32 | FFixed32 => Some (MU32 (as_u32 n))
               | FUint64 | FFixed64 => Some (MU64 n)
               | _ => None
               end
  | KStr s => Some (MStr s)
  end.

(** CO:516-645 [cel_val_to_single_proto_value] for scalar kinds *)
Definition scalar_to_proto (C : cenv) (k : fkind) (v : value) : option pval :=
  match k, v with
  | FBool, VBool b => Some (PBool b)
  | (FInt32 | FSint32 | FSfixed32), VInt z => Some (PI32 (as_i32 z))
  | (FInt64 | FSint64 | FSfixed64), VInt z => Some (PI64 z)
  | (FUint32 | FFixed32), VUInt n => Some (PU32 (as_u32 n))
  | (FUint64 | FFixed64), VUInt n => Some (PU64 n)
  | FFloat, VFloat b => option_map PF32 (cv_narrow C b)
  | FDouble, VFloat b => Some (PF64 b)
  | FString, VString s => Some (PStr s)
  | FBytes, VBytes s => Some (PBytes s)
  | FEnum l, VInt z => if (Z.leb (-2147483648) z && Z.leb z 2147483647 && existsb (Z.eqb z) l)%bool then Some (PEnum z) else None
  | _, _ => None
  end.

(** CO:647-683 [cel_timestamp_to_proto_message]; [dt.timestamp()] rounds down *)
Definition timestamp_to_proto (d : mdesc) (t : Z) : option pval :=
  match field_by_name d (tx "seconds"), field_by_name d (tx "nanos") with
  | Some fs, Some fn =>
      Some (PMsg (md_name d) (set_field d fn (PI32 (t mod 1000000000)) (set_field d fs (PI64 (t / 1000000000)) [])))
  | _, _ => None
  end.

(** CO:374-427 [struct_to_dynamic_message] (and :852-876 [struct_from_val_to_message]), given
    the struct's fields as conversion functions *)
Fixpoint build_fields (d : mdesc) (todo : list fdesc) (fs : list (text * (fdesc -> option pval))) (m : list (text * pval)) : option (list (text * pval)) :=
  match todo with
  | [] => Some m
  | f :: todo' =>
      match tget (fd_name f) fs with
      | None => build_fields d todo' fs m
      | Some conv => match conv f with
                     | Some v => build_fields d todo' fs (set_field d f v m)
                     | None => None
                     end
      end
  end.

(** [collect::<Result<Vec<_>, _>>] *)
Fixpoint all_some {A} (l : list (option A)) : option (list A) :=
  match l with
  | [] => Some []
  | Some x :: l' => match all_some l' with Some m => Some (x :: m) | None => None end
  | None :: _ => None
  end.

(** CO:463-471: the entries of a map field, inserted in turn *)
Fixpoint build_map (l : list (option pkey * option pval)) (acc : list (pkey * pval)) : option (list (pkey * pval)) :=
  match l with
  | [] => Some acc
  | (Some k, Some v) :: l' => build_map l' (aset pkey_eqb k v acc)
  | _ :: _ => None
  end.

(** CO:390-402 [cel_val_to_proto_value] ([whole]), :404-427 [cel_list_to_proto_list],
    :429-472 [cel_map_to_proto_map], :516-645 [cel_val_to_single_proto_value] (not [whole]) *)
Fixpoint to_proto (C : cenv) (p : schema) (whole : bool) (f : fdesc) (v : value) {struct v} : option pval :=
  if (whole && is_map p f)%bool then
    match v with
    | VMap l =>
        match fd_kind f with
        | FMsg n =>
            match lookup p n with
            | Some e =>
                match field_by_name e (tx "key"), field_by_name e (tx "value") with
                | Some kf, Some vf =>
                    option_map PMap (build_map (map (fun kv => (key_to_proto (fst kv) (fd_kind kf), to_proto C p false vf (snd kv))) l) [])
                | _, _ => None
                end
            | None => None
            end
        | _ => None
        end
    | _ => None
    end
  else if (whole && fd_repeated f)%bool then
    match v with
    | VList l => option_map PList (all_some (map (fun x => to_proto C p false f x) l))
    | _ => None
    end
  else
    match fd_kind f with
    | FMsg n =>
        match lookup p n with
        | Some d =>
            match v with
            | VTimestamp t => if text_eqb n t_timestamp then timestamp_to_proto d t else None
            | VStruct _ fs =>
                option_map (PMsg n) (build_fields d (md_fields d) (map (fun kv => (fst kv, fun g => to_proto C p true g (snd kv))) fs) [])
            | _ => None
            end
        | None => None
        end
    | k => scalar_to_proto C k v
    end.

(** CO:206-215 [cel_to_dynamic_message] for the message type [n] *)
Definition cel_to_message (C : cenv) (p : schema) (n : text) (v : value) : option (list (text * pval)) :=
  match v, lookup p n with
  | VStruct _ fs, Some d => build_fields d (md_fields d) (map (fun kv => (fst kv, fun g => to_proto C p true g (snd kv))) fs) []
  | _, _ => None
  end.

(** CO:363-372 [map_key_to_cel] *)
Definition key_to_cel (k : pkey) : mkey :=
  match k with
  | MBool b => KBool b
  | MI32 z | MI64 z => KInt z
  | MU32 n | MU64 n => KUInt n
  | MStr s => KStr s
  end.

(** CO:306-318 (scalars) *)
Definition scalar_to_cel (C : cenv) (v : pval) : option value :=
  match v with
  | PBool b => Some (VBool b)
  | PI32 z | PI64 z => Some (VInt z)
  | PU32 n | PU64 n => Some (VUInt n)
  | PF32 b => Some (VFloat (cv_widen C b))
  | PF64 b => Some (VFloat b)
  | PStr s => Some (VString s)
  | PBytes s => Some (VBytes s)
  | PEnum z => Some (VInt z)
  | _ => None
  end.

(** [Value::default_value_for_field] for fields that are not singular messages *)
Definition default_of (p : schema) (f : fdesc) : option pval :=
  if is_map p f then Some (PMap [])
  else if fd_repeated f then Some (PList [])
  else match fd_kind f with
       | FBool => Some (PBool false)
       | FInt32 | FSint32 | FSfixed32 => Some (PI32 0)
       | FInt64 | FSint64 | FSfixed64 => Some (PI64 0)
       | FUint32 | FFixed32 => Some (PU32 0)
       | FUint64 | FFixed64 => Some (PU64 0)
       | FFloat => Some (PF32 0)
       | FDouble => Some (PF64 0)
       | FString => Some (PStr [])
       | FBytes => Some (PBytes [])
       | FEnum l => Some (PEnum (hd 0%Z l))
       | FMsg _ => None
       end.
Definition default_to_cel (C : cenv) (p : schema) (f : fdesc) : option value :=
  match default_of p f with
  | Some (PMap _) => Some (VMap [])
  | Some (PList _) => Some (VList [])
  | Some v => scalar_to_cel C v
  | None => None
  end.

(** CO:685-747 [proto_timestamp_to_cel_timestamp]; unset fields read as 0 *)
Definition timestamp_to_cel (C : cenv) (p : schema) (d : mdesc) (fs : list (text * pval)) : option value :=
  match field_by_name d (tx "seconds"), field_by_name d (tx "nanos") with
  | Some f1, Some f2 =>
      let get f := match tget (fd_name f) fs with Some v => Some v | None => default_of p f end in
      match get f1, get f2 with
      | Some (PI64 s), Some (PI32 n) => option_map VTimestamp (cv_time C s (i32_as_u32 n))
      | _, _ => None
      end
  | _, _ => None
  end.

(** CO:286-302 [dynamic_message_to_cel], :341-351: the fields of the struct, given the set
    fields already converted *)
Fixpoint read_fields (C : cenv) (p : schema) (todo : list fdesc) (cs : list (text * option value)) : option (list (text * value)) :=
  match todo with
  | [] => Some []
  | f :: todo' =>
      match match tget (fd_name f) cs with
            | Some r => Some r
            | None => if supports_presence f then None else Some (default_to_cel C p f)
            end with
      | None => read_fields C p todo' cs
      | Some None => None
      | Some (Some v) => match read_fields C p todo' cs with Some l => Some ((fd_name f, v) :: l) | None => None end
      end
  end.

(** CO:777-805 [unwrap_proto_value], given the set fields already converted.  An unset
    field outside a oneof (the standard descriptor has none) reads as its default; a
    default that is a message is not modelled ([None]). *)
Fixpoint unwrap_value (C : cenv) (p : schema) (todo : list fdesc) (cs : list (text * option value)) : option value :=
  match todo with
  | [] => Some VNull
  | f :: todo' =>
      match tget (fd_name f) cs, fd_oneof f with
      | None, Some _ => unwrap_value C p todo' cs
      | r, _ =>
          if text_eqb (fd_name f) (tx "null_value") then Some VNull
          else if mem_text (fd_name f) [tx "number_value"; tx "string_value"; tx "bool_value"; tx "struct_value"; tx "list_value"]
               then match r with Some v => v | None => default_to_cel C p f end
               else None
      end
  end.

(** CO:749-775 [unwrap_proto_struct], :807-832 [unwrap_proto_list_value]: the field [name],
    which must hold a map, or a list *)
Definition unwrap_field (C : cenv) (p : schema) (d : mdesc) (name : text) (ok : pval -> bool) (fs : list (text * pval)) (cs : list (text * option value)) : option value :=
  match field_by_name d name with
  | Some f =>
      match tget name fs with
      | Some v => if ok v then match tget name cs with Some r => r | None => None end else None
      | None => match default_of p f with
                | Some v => if ok v then default_to_cel C p f else None
                | None => None
                end
      end
  | None => None
  end.
Definition is_pmap (v : pval) : bool := match v with PMap _ => true | _ => false end.
Definition is_plist (v : pval) : bool := match v with PList _ => true | _ => false end.

(** CO:355-360: a map's entries, converted and inserted in turn *)
Fixpoint read_map (l : list (mkey * option value)) (acc : list (mkey * value)) : option (list (mkey * value)) :=
  match l with
  | [] => Some acc
  | (k, Some v) :: l' => read_map l' (aset mkey_eqb k v acc)
  | (_, None) :: _ => None
  end.

(** CO:304-361 [proto_value_to_cel_val] *)
Fixpoint to_cel (C : cenv) (p : schema) (v : pval) {struct v} : option value :=
  match v with
  | PMsg n fs =>
      match lookup p n with
      | None => None
      | Some d =>
          let cs := map (fun kv => (fst kv, to_cel C p (snd kv))) fs in
          if text_eqb n t_timestamp then timestamp_to_cel C p d fs
          else if text_eqb n t_struct then unwrap_field C p d (tx "fields") is_pmap fs cs
          else if text_eqb n t_value then unwrap_value C p (md_fields d) cs
          else if text_eqb n t_list then unwrap_field C p d (tx "values") is_plist fs cs
          else option_map (VStruct n) (read_fields C p (md_fields d) cs)
      end
  | PList l => option_map VList (all_some (map (to_cel C p) l))
  | PMap l => option_map VMap (read_map (map (fun kv => (key_to_cel (fst kv), to_cel C p (snd kv))) l) [])
  | v => scalar_to_cel C v
  end.

(** CO:286-302 [dynamic_message_to_cel]: the reply itself is never unwrapped *)
Definition message_to_cel (C : cenv) (p : schema) (n : text) (fs : list (text * pval)) : option value :=
  match lookup p n with
  | None => None
  | Some d => option_map (VStruct n) (read_fields C p (md_fields d) (map (fun kv => (fst kv, to_cel C p (snd kv))) fs))
  end.
