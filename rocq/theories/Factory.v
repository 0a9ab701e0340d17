(** Model of KF/kuadrant/pipeline/factory.rs (FA). *)
From Coq Require Import String List NArith Bool Ascii.
From Verif Require Import Base Value Headers AttrPath Ctx CelProps CelEval Sse Body Tasks Exec Config Legacy Blueprint.
Import ListNotations.
Open Scope list_scope.

(** FA:234-243 [reverse_subdomain].  The code reverses characters, the model bytes: on
    valid UTF-8 one such text is a prefix of another in the first sense iff it is in the
    second, and only this relation is used. *)
Definition reverse_subdomain (h : text) : text :=
  rev (match h with
       | "*"%char :: r => r ++ [dot]
       | _ => "$"%char :: h ++ [dot]
       end).

(** [to_ascii_lowercase] *)
Definition lower_char (a : ascii) : ascii :=
  if in_rng 65 90 a then ascii_of_N (bval a + 32) else a.
Definition to_lower (s : text) : text := map lower_char s.

(** FA:245-262 [domain_and_field_name], on characters *)
Fixpoint last_idx {A} (f : A -> bool) (l : list A) : option nat :=
  match l with
  | [] => None
  | a :: l' => match last_idx f l' with
               | Some i => Some (S i)
               | None => if f a then Some O else None
               end
  end.
Definition domain_field_chars (alpha : N -> bool) (cs : list N) : option (list N * list N) :=
  let hay := firstn (match last_idx alpha cs with Some i => i | None => O end) cs in
  match last_idx (N.eqb 46) hay with
  | None => None
  | Some i => if Nat.eqb i 0 || Nat.eqb i (length cs - 1) then None else Some (firstn i cs, skipn (S i) cs)
  end.
(** a Rust string is always valid UTF-8; the other case is a filler *)
Definition domain_and_field (alpha : N -> bool) (name : text) : text * text :=
  match utf8_decode name with
  | None => ([], name)
  | Some cs => match domain_field_chars alpha cs with
               | None => ([], name)
               | Some (d, f) => (utf8_encode d, utf8_encode f)
               end
  end.

(** [index.map_with_default] (FA:116-120): the radix trie is an association list *)
Definition index := list (text * list blueprint).
Definition idx_add (bp : blueprint) (ix : index) (host : text) : index :=
  let k := reverse_subdomain (to_lower host) in
  tset k (match tget k ix with Some l => l ++ [bp] | None => [bp] end) ix.

(** [Trie::get_ancestor_value] (crate radix_trie): the value of the longest key that is
    a prefix of the given one *)
Fixpoint ancestor (h : text) (ix : index) : option (text * list blueprint) :=
  match ix with
  | [] => None
  | (k, v) :: ix' =>
      match ancestor h ix' with
      | Some (k', v') => if starts_with k h && Nat.ltb (length k') (length k) then Some (k, v) else Some (k', v')
      | None => if starts_with k h then Some (k, v) else None
      end
  end.

(** FA:21-25 [PipelineFactory] *)
Record factory := mkFactory {
  fa_index : index; fa_rdata : list ((text * text) * (text * expr)); fa_fallback : option blueprint }.
(** FA:42-50 [default] *)
Definition factory0 : factory := mkFactory [] [] None.

(** [sort_by(|a, b| a.0.cmp(&b.0))] (FA:86): stable *)
Definition text_ltb (a b : text) : bool := negb (text_leb b a).
Definition pair_leb (a b : text * text) : bool :=
  text_ltb (fst a) (fst b) || (text_eqb (fst a) (fst b) && text_leb (snd a) (snd b)).
Fixpoint ins_rd {V} (x : (text * text) * V) (l : list ((text * text) * V)) :=
  match l with
  | [] => [x]
  | y :: l' => if pair_leb (fst x) (fst y) then x :: l else y :: ins_rd x l'
  end.
Definition sort_rd {V} (l : list ((text * text) * V)) := fold_right ins_rd [] l.

(** FA:91-111: the dev-mode action ("true" is taken as the literal) *)
Definition dev_action (tracing : sinst) (header : text) : action :=
  mkAct (tx "kuadrant.devMode") true_expr false (BGrpc tracing header true_expr []) [] true.

(** FA:113-127 *)
Definition add_set (E : env) (svs : list (text * sinst)) (rd : rdata) (dev : option action)
    (ix : option index) (s : action_set) : option index :=
  match ix with
  | None => None
  | Some ix =>
      match compile_set E svs rd s with
      | None => None
      | Some bp =>
          let bp' := mkBp (bp_name bp) (bp_preds bp)
                       (bp_actions bp ++ match dev with Some a => [a] | None => [] end) in
          Some (fold_left (idx_add bp') (as_hosts s) ix)
      end
  end.

(** FA:53-140 [try_from]: [None] for a compile error *)
Definition try_from (E : env) (cfg : plugin_cfg) : option factory :=
  match map_opt (fun kv => option_map (pair (fst kv)) (inst_of (snd kv))) (pc_services cfg) with
  | None => None
  | Some svs =>
      let tracing := match pc_tracing cfg with
                     | Some n => match tget n svs with Some i => i | None => ITrace None end
                     | None => ITrace None
                     end in
      let rd := sort_rd (filter_map
                  (fun kv => option_map (fun e => (domain_and_field (o_alpha E) (fst kv), (snd kv, e)))
                               (parse_expr E (snd kv))) (pc_request_data cfg)) in
      let rsrc := map (fun r => (fst r, fst (snd r))) rd in
      let dev := option_map (dev_action tracing) (pc_identifier cfg) in
      match fold_left (add_set E svs rsrc dev) (pc_sets cfg) (Some []) with
      | None => None
      | Some ix => Some (mkFactory ix rd (option_map (fun a => mkBp (tx "kuadrant.devMode") [] [a]) dev))
      end
  end.

(** FA:197-209 [get_hostname] *)
Definition get_hostname (E : env) (c : ctx) : option text * ctx :=
  match read_string E [tx "request"; tx "host"] c with
  | (RAvail (Some h), c') => (Some (to_lower (before_char colon h)), c')
  | (_, c') => (None, c')
  end.

(** FA:180-191: the candidates in order; [None] is an error *)
Fixpoint first_match (E : env) (l : list blueprint) (c : ctx) : option (option blueprint) * ctx :=
  match l with
  | [] => (Some None, c)
  | b :: l' =>
      match route_match E (bp_preds b) c with
      | (RAvail true, c') => (Some (Some b), c')
      | (RAvail false, c') => first_match E l' c'
      | (_, c') => (None, c')
      end
  end.

(** FA:168-195 [select_blueprint]: [None] is an error *)
Definition select (E : env) (f : factory) (c : ctx) : option (option blueprint) * ctx :=
  match get_hostname E c with
  | (None, c1) => (None, c1)
  | (Some h, c1) =>
      match ancestor (reverse_subdomain h) (fa_index f) with
      | None => (Some None, c1)
      | Some (_, bps) =>
          match first_match E bps c1 with
          | (None, c2) => (None, c2)
          | (Some (Some b), c2) => (Some (Some b), c2)
          | (Some None, c2) => (Some (fa_fallback f), c2)
          end
      end
  end.

Inductive bres := BOk (p : pipe) | BNone (c : ctx) | BErr (c : ctx) | BPanic (c : ctx).

(** FA:142-166 [build] with executor.rs:44-67 [Pipeline::new], [with_tasks],
    [with_teardown_tasks] *)
Definition build (E : env) (f : factory) (c : ctx) : bres :=
  match select E f c with
  | (None, c1) => BErr c1
  | (Some None, c1) => BNone c1
  | (Some (Some b), c1) =>
      let c2 := snd (read_headers E p_req_headers c1) in
      match to_tasks E (map (fun r => snd (snd r)) (fa_rdata f)) b c2 with
      | None => BPanic c2
      | Some (ts, tds, c3) =>
          match ts with
          | [] => BNone c3
          | _ => BOk (mkPipe c3 ts [] [] tds false)
          end
      end
  end.
