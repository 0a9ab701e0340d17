(** CEL values as seen by the filter (crate [cel], type [cel::Value], used throughout
    KF/data/cel.rs).  Simplifications: floats are their 64-bit pattern, timestamps
    are nanoseconds since the epoch, maps are association lists, opaque values and
    functions are not represented. *)
From Coq Require Import String List NArith ZArith Bool.
From Verif Require Import Base.
Import ListNotations.
Open Scope list_scope.

(** [cel::objects::Key] *)
Inductive mkey := KInt (z : Z) | KUInt (n : N) | KBool (b : bool) | KStr (s : text).

Inductive value :=
| VNull
| VBool (b : bool)
| VInt (z : Z)
| VUInt (n : N)
| VFloat (bits : N)
| VString (s : text)
| VBytes (s : text)
| VList (l : list value)
| VMap (l : list (mkey * value))
| VStruct (name : text) (fields : list (text * value))
| VTimestamp (nanos : Z)
| VDuration (nanos : Z).

Definition mkey_eqb (a b : mkey) : bool :=
  match a, b with
  | KInt x, KInt y => Z.eqb x y
  | KUInt x, KUInt y => N.eqb x y
  | KBool x, KBool y => Bool.eqb x y
  | KStr x, KStr y => text_eqb x y
  | _, _ => false
  end.

Lemma mkey_eqb_eq a b : mkey_eqb a b = true <-> a = b.
Proof.
  destruct a, b; simpl; try (split; [discriminate|discriminate]).
  - rewrite Z.eqb_eq. split; [now intros ->|now inversion 1].
  - rewrite N.eqb_eq. split; [now intros ->|now inversion 1].
  - rewrite Bool.eqb_true_iff. split; [now intros ->|now inversion 1].
  - rewrite text_eqb_eq. split; [now intros ->|now inversion 1].
Qed.

(** Induction principle through the nested lists. *)
Section ValueInd.
  Variable P : value -> Prop.
  Hypothesis HNull : P VNull.
  Hypothesis HBool : forall b, P (VBool b).
  Hypothesis HInt : forall z, P (VInt z).
  Hypothesis HUInt : forall n, P (VUInt n).
  Hypothesis HFloat : forall n, P (VFloat n).
  Hypothesis HString : forall s, P (VString s).
  Hypothesis HBytes : forall s, P (VBytes s).
  Hypothesis HList : forall l, Forall P l -> P (VList l).
  Hypothesis HMap : forall l, Forall (fun kv => P (snd kv)) l -> P (VMap l).
  Hypothesis HStruct : forall n l, Forall (fun kv => P (snd kv)) l -> P (VStruct n l).
  Hypothesis HTimestamp : forall z, P (VTimestamp z).
  Hypothesis HDuration : forall z, P (VDuration z).
  Fixpoint value_ind' (v : value) : P v :=
    match v with
    | VNull => HNull
    | VBool b => HBool b
    | VInt z => HInt z
    | VUInt n => HUInt n
    | VFloat n => HFloat n
    | VString s => HString s
    | VBytes s => HBytes s
    | VList l => HList l ((fix go l : Forall P l :=
                             match l with
                             | [] => Forall_nil _
                             | x :: l' => Forall_cons x (value_ind' x) (go l')
                             end) l)
    | VMap l => HMap l ((fix go l : Forall (fun kv => P (snd kv)) l :=
                           match l with
                           | [] => Forall_nil _
                           | x :: l' => Forall_cons x (value_ind' (snd x)) (go l')
                           end) l)
    | VStruct n l => HStruct n l ((fix go l : Forall (fun kv => P (snd kv)) l :=
                                     match l with
                                     | [] => Forall_nil _
                                     | x :: l' => Forall_cons x (value_ind' (snd x)) (go l')
                                     end) l)
    | VTimestamp z => HTimestamp z
    | VDuration z => HDuration z
    end.
End ValueInd.

(** KF/services/dynamic/converters.rs:154-201 [cel_value_to_header_pairs].
    Each list element contributes at most one pair: a two-element list of strings, a
    struct with string fields key/value, or a struct whose field header is such a
    struct.  A missing struct field and a field of another type are both "no pair". *)
Definition str_fields (fs : list (text * value)) : option (text * text) :=
  match tget (tx "key") fs, tget (tx "value") fs with
  | Some (VString k), Some (VString v) => Some (k, v)
  | _, _ => None
  end.

Definition header_pair (v : value) : option (text * text) :=
  match v with
  | VList [VString k; VString v] => Some (k, v)
  | VStruct _ fs =>
      match str_fields fs with
      | Some kv => Some kv
      | None =>
          match tget (tx "header") fs with
          | Some (VStruct _ hs) => str_fields hs
          | _ => None
          end
      end
  | _ => None
  end.

Definition header_pairs (v : value) : list (text * text) :=
  match v with
  | VList items =>
      fold_left (fun acc item => match header_pair item with
                                 | Some kv => acc ++ [kv]
                                 | None => acc
                                 end) items []
  | _ => []
  end.
