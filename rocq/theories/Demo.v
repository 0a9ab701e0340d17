(** Concrete environments for the examples and counterexamples (no repo code). *)
From Coq Require Import String List NArith ZArith Bool.
From Verif Require Import Base Value Headers AttrPath Ctx.
Import ListNotations.
Open Scope list_scope.

(** A host that knows nothing, refuses calls, accepts writes and replies. *)
Definition E0 : env := {|
  h_prop := fun _ _ => HOk None; h_map := fun _ _ => HOk []; h_reqheader := fun _ _ => None;
  h_setprop := fun _ _ _ => HOk tt; h_setmap := fun _ _ _ => HOk tt;
  h_reqbody := fun _ _ _ => HOk None; h_respbody := fun _ _ _ => HOk None;
  h_dispatch := fun _ _ => None; h_grpcresp := fun _ _ => None; h_reply := fun _ _ _ _ => true;
  o_parse := fun _ => None; o_cel := fun _ _ _ => None; o_json := fun _ => None;
  o_pointer := fun _ _ => None; o_jshow := fun _ => []; o_f64 := fun _ => None;
  o_jnew := fun _ => true; o_jfeed := fun _ _ => JMore; o_jraw := fun _ _ => [];
  o_jfinish := fun _ _ => true; o_encode := fun _ _ _ => Some []; o_decode := fun _ _ _ => Some VNull;
  o_uuid := fun _ => tx "uuid"; o_trace := fun _ => [];
  o_span_on := fun _ => false; o_spans := fun _ => None; o_alpha := fun _ => false |}.

(** Field updates *)
Definition e_prop (E : env) f := mkEnv f (h_map E) (h_reqheader E) (h_setprop E) (h_setmap E) (h_reqbody E) (h_respbody E) (h_dispatch E) (h_grpcresp E) (h_reply E) (o_parse E) (o_cel E) (o_json E) (o_pointer E) (o_jshow E) (o_f64 E) (o_jnew E) (o_jfeed E) (o_jraw E) (o_jfinish E) (o_encode E) (o_decode E) (o_uuid E) (o_trace E) (o_span_on E) (o_spans E) (o_alpha E).
Definition e_map (E : env) f := mkEnv (h_prop E) f (h_reqheader E) (h_setprop E) (h_setmap E) (h_reqbody E) (h_respbody E) (h_dispatch E) (h_grpcresp E) (h_reply E) (o_parse E) (o_cel E) (o_json E) (o_pointer E) (o_jshow E) (o_f64 E) (o_jnew E) (o_jfeed E) (o_jraw E) (o_jfinish E) (o_encode E) (o_decode E) (o_uuid E) (o_trace E) (o_span_on E) (o_spans E) (o_alpha E).
Definition e_body (E : env) f g := mkEnv (h_prop E) (h_map E) (h_reqheader E) (h_setprop E) (h_setmap E) f g (h_dispatch E) (h_grpcresp E) (h_reply E) (o_parse E) (o_cel E) (o_json E) (o_pointer E) (o_jshow E) (o_f64 E) (o_jnew E) (o_jfeed E) (o_jraw E) (o_jfinish E) (o_encode E) (o_decode E) (o_uuid E) (o_trace E) (o_span_on E) (o_spans E) (o_alpha E).
Definition e_dispatch (E : env) f := mkEnv (h_prop E) (h_map E) (h_reqheader E) (h_setprop E) (h_setmap E) (h_reqbody E) (h_respbody E) f (h_grpcresp E) (h_reply E) (o_parse E) (o_cel E) (o_json E) (o_pointer E) (o_jshow E) (o_f64 E) (o_jnew E) (o_jfeed E) (o_jraw E) (o_jfinish E) (o_encode E) (o_decode E) (o_uuid E) (o_trace E) (o_span_on E) (o_spans E) (o_alpha E).
Definition e_grpcresp (E : env) f := mkEnv (h_prop E) (h_map E) (h_reqheader E) (h_setprop E) (h_setmap E) (h_reqbody E) (h_respbody E) (h_dispatch E) f (h_reply E) (o_parse E) (o_cel E) (o_json E) (o_pointer E) (o_jshow E) (o_f64 E) (o_jnew E) (o_jfeed E) (o_jraw E) (o_jfinish E) (o_encode E) (o_decode E) (o_uuid E) (o_trace E) (o_span_on E) (o_spans E) (o_alpha E).
Definition e_parse (E : env) f := mkEnv (h_prop E) (h_map E) (h_reqheader E) (h_setprop E) (h_setmap E) (h_reqbody E) (h_respbody E) (h_dispatch E) (h_grpcresp E) (h_reply E) f (o_cel E) (o_json E) (o_pointer E) (o_jshow E) (o_f64 E) (o_jnew E) (o_jfeed E) (o_jraw E) (o_jfinish E) (o_encode E) (o_decode E) (o_uuid E) (o_trace E) (o_span_on E) (o_spans E) (o_alpha E).
Definition e_cel (E : env) f := mkEnv (h_prop E) (h_map E) (h_reqheader E) (h_setprop E) (h_setmap E) (h_reqbody E) (h_respbody E) (h_dispatch E) (h_grpcresp E) (h_reply E) (o_parse E) f (o_json E) (o_pointer E) (o_jshow E) (o_f64 E) (o_jnew E) (o_jfeed E) (o_jraw E) (o_jfinish E) (o_encode E) (o_decode E) (o_uuid E) (o_trace E) (o_span_on E) (o_spans E) (o_alpha E).
Definition e_spans (E : env) f := mkEnv (h_prop E) (h_map E) (h_reqheader E) (h_setprop E) (h_setmap E) (h_reqbody E) (h_respbody E) (h_dispatch E) (h_grpcresp E) (h_reply E) (o_parse E) (o_cel E) (o_json E) (o_pointer E) (o_jshow E) (o_f64 E) (o_jnew E) (o_jfeed E) (o_jraw E) (o_jfinish E) (o_encode E) (o_decode E) (o_uuid E) (o_trace E) (o_span_on E) f (o_alpha E).
Definition e_reply (E : env) f := mkEnv (h_prop E) (h_map E) (h_reqheader E) (h_setprop E) (h_setmap E) (h_reqbody E) (h_respbody E) (h_dispatch E) (h_grpcresp E) f (o_parse E) (o_cel E) (o_json E) (o_pointer E) (o_jshow E) (o_f64 E) (o_jnew E) (o_jfeed E) (o_jraw E) (o_jfinish E) (o_encode E) (o_decode E) (o_uuid E) (o_trace E) (o_span_on E) (o_spans E) (o_alpha E).

(** A small interpreter for the literals, lists, structs, identifiers and selections used
    in the examples: it is an oracle like any other. *)
Fixpoint cel0 (fuel : nat) (vs : list (text * value)) (a : ast) : option value :=
  match fuel with
  | O => None
  | S n =>
      match a with
      | ALit v => Some v
      | AIdent x => tget x vs
      | ASelect a f test =>
          let found (r : option value) := if test then Some (VBool (match r with Some _ => true | None => false end)) else r in
          match cel0 n vs a with
          | Some (VMap m) => found (aget mkey_eqb (KStr f) m)
          | Some (VStruct _ fs) => found (tget f fs)
          | _ => None
          end
      | AList l =>
          option_map VList
            (fold_right (fun a acc => match cel0 n vs a, acc with Some v, Some l => Some (v :: l) | _, _ => None end)
               (Some []) l)
      | AStruct nm l =>
          option_map (VStruct nm)
            (fold_right (fun fa acc => match cel0 n vs (snd fa), acc with Some v, Some l => Some ((fst fa, v) :: l) | _, _ => None end)
               (Some []) l)
      | _ => None
      end
  end.
Definition cel_demo : log -> ast -> list (text * value) -> option value := fun _ a vs => cel0 50 vs a.

(** Tokens: each call gets one above all earlier ones. *)
Definition next_token (l : log) : N :=
  fold_right (fun e m => match e with
                         | EvDispatch _ _ (Some k) | EvExport _ (Some k) => N.max (k + 1) m
                         | _ => m
                         end) 0%N l.
Definition disp_demo : log -> call -> option N := fun l _ => Some (next_token l).

Definition E1 : env := e_dispatch (e_grpcresp (e_cel E0 cel_demo) (fun _ _ => Some [])) disp_demo.
