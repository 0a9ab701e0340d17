(** Model of KF/data/headers.rs. *)
From Coq Require Import String List Bool.
From Verif Require Import Base.
Import ListNotations.
Open Scope list_scope.

(** headers.rs:5 [Headers(Vec<(String, String)>)] *)
Definition headers := list (text * text).

(** headers.rs:12-14 [append] *)
Definition h_append (k v : text) (h : headers) : headers := h ++ [(k, v)].
(** headers.rs:16-19 [set]: retain the entries with another key, then push *)
Definition h_set (k v : text) (h : headers) : headers :=
  filter (fun kv => negb (text_eqb (fst kv) k)) h ++ [(k, v)].
(** headers.rs:21-23 [remove] *)
Definition h_remove (k : text) (h : headers) : headers :=
  filter (fun kv => negb (text_eqb (fst kv) k)) h.
(** headers.rs:25-31 [get_all] *)
Definition h_get_all (k : text) (h : headers) : list text :=
  map snd (filter (fun kv => text_eqb (fst kv) k) h).
(** headers.rs:33-38 [get] *)
Definition h_get (k : text) (h : headers) : option text :=
  option_map snd (find (fun kv => text_eqb (fst kv) k) h).
(** headers.rs:63-65 [extend] *)
Definition h_extend (h o : headers) : headers := h ++ o.

(** headers.rs:86-99 [From<Headers> for HashMap]: repeated names are joined by ','. *)
Definition h_map_add (m : list (text * text)) (kv : text * text) : list (text * text) :=
  match tget (fst kv) m with
  | Some old => tset (fst kv) (old ++ tx "," ++ snd kv) m
  | None => tset (fst kv) (snd kv) m
  end.
Definition h_to_map (h : headers) : list (text * text) := fold_left h_map_add h [].

(** tasks/headers.rs:106-111: every configured pair is [set] in order. *)
Definition h_set_all (pairs : headers) (h : headers) : headers :=
  fold_left (fun h kv => h_set (fst kv) (snd kv) h) pairs h.
