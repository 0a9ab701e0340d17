(** Model of the pipeline executor: KF/kuadrant/pipeline/executor.rs. *)
From Coq Require Import String List NArith Bool.
From Verif Require Import Base Value Headers AttrPath Ctx CelProps CelEval Sse Body Tasks.
Import ListNotations.
Open Scope list_scope.

(** executor.rs:22-29 [Pipeline].  [p_def] is the token-indexed map of tasks awaiting a
    response, [p_done] the set of completed ids. *)
Record pipe := mkPipe {
  p_ctx : ctx; p_queue : list task; p_def : list (N * task);
  p_done : list text; p_td : list td; p_term : bool }.

Definition p_with_ctx (p : pipe) c := mkPipe c (p_queue p) (p_def p) (p_done p) (p_td p) (p_term p).
Definition p_with_queue (p : pipe) q := mkPipe (p_ctx p) q (p_def p) (p_done p) (p_td p) (p_term p).
Definition p_with_def (p : pipe) d := mkPipe (p_ctx p) (p_queue p) d (p_done p) (p_td p) (p_term p).
Definition p_with_done (p : pipe) d := mkPipe (p_ctx p) (p_queue p) (p_def p) d (p_td p) (p_term p).

(** Dropping task objects releases their reservations (context.rs:567-585). *)
Definition drop_tasks (l : list task) (c : ctx) : ctx := release (ts_paths l) c.

(** Apply a task: [Task::apply] consumes it; reservations of what the outcome does not
    keep are released.  Ghost events record the evaluation and its result. *)
Definition step (E : env) (t : task) (c : ctx) : outcome * ctx :=
  let (o, c1) := apply E t (emit (EvEval (t_id t)) c) in
  let c2 := with_res c1 (o_paths o ++ remove_all (t_paths t) (c_res c1)) in
  (o, match o with
      | ODone => emit (EvDone (t_id t)) c2
      | OFailed => emit (EvFailed (t_id t)) c2
      | OTerminate _ => emit (EvTerminate (t_id t)) c2
      | ODeferred _ _ | ORequeued _ => c2
      end).

(** The terminal task of [TaskOutcome::Terminate] is applied and its outcome dropped
    (executor.rs:138, 197). *)
Definition run_terminal (E : env) (t : task) (c : ctx) : ctx :=
  let (_, c1) := apply E t c in drop_tasks [t] c1.

(** [BTreeMap::insert]; a replaced task is dropped (executor.rs:126-128, 188-190, 99-101) *)
Definition def_insert (tok : N) (t : task) (p : pipe) : pipe :=
  let c := match nget tok (p_def p) with Some old => drop_tasks [old] (p_ctx p) | None => p_ctx p end in
  mkPipe c (p_queue p) (nset tok t (p_def p)) (p_done p) (p_td p) (p_term p).

(** executor.rs:69-85 [replace_deferred_with_noop] *)
Definition noop_of (t : task) : task := TPendNoop (t_id t) (t_guard t).
Definition replace_deferred (p : pipe) : pipe :=
  mkPipe (drop_tasks (map snd (p_def p)) (p_ctx p)) (p_queue p)
    (map (fun kt => (fst kt, noop_of (snd kt))) (p_def p)) (p_done p) (p_td p) (p_term p).

(** executor.rs:89-105: one teardown action *)
Definition td_step (E : env) (p : pipe) (t : td) : pipe :=
  let (r, c) := td_exec E t (emit EvTeardown (p_ctx p)) in
  let p' := p_with_ctx p c in
  match r with
  | None => p'
  | Some tok => def_insert tok (TPendNoop (tx "teardown_" ++ nat_text (N.to_nat tok)) false) p'
  end.
(** executor.rs:87-106 [execute_teardown] *)
Definition execute_teardown (E : env) (p : pipe) : pipe :=
  let p1 := replace_deferred p in
  fold_left (td_step E) (p_td p1)
    (mkPipe (p_ctx p1) (p_queue p1) (p_def p1) (p_done p1) [] (p_term p1)).

(** executor.rs:110-114: some dependency is not completed *)
Definition blocked (done : list text) (t : task) : bool :=
  existsb (fun d => negb (mem_text d done)) (t_deps t).

(** executor.rs:108-145 [process_tasks]; the boolean is [Terminated] *)
Fixpoint process (E : env) (ts : list task) (p : pipe) : bool * pipe :=
  match ts with
  | [] => (false, p)
  | t :: ts' =>
      if blocked (p_done p) t then process E ts' (p_with_queue p (p_queue p ++ [t]))
      else
        let (o, c) := step E t (p_ctx p) in
        let p1 := p_with_ctx p c in
        match o with
        | ODone => process E ts' (p_with_done p1 (t_id t :: p_done p1))
        | ODeferred tok t' => process E ts' (def_insert tok t' p1)
        | ORequeued l => process E ts' (p_with_queue p1 (p_queue p1 ++ l))
        | OFailed => process E ts' p1
        | OTerminate fin =>
            let c' := drop_tasks (p_queue p1 ++ ts') (run_terminal E fin (p_ctx p1)) in
            (true, mkPipe c' [] (p_def p1) (p_done p1) (p_td p1) true)
        end
  end.

(** executor.rs:12-15 [PipelineState]; the context of a completed pipeline is dropped,
    the model keeps it for its log *)
Inductive pstate := InProgress (p : pipe) | Completed (should_resume : bool) (c : ctx).

(** executor.rs:31-41 *)
Definition to_state (p : pipe) : pstate :=
  match p_queue p, p_def p with
  | [], [] => Completed (negb (p_term p)) (p_ctx p)
  | _, _ => InProgress p
  end.

(** executor.rs:147-164 [eval], before the conversion to a state *)
Definition eval_pipe (E : env) (p : pipe) : pipe :=
  let (term, p1) := process E (p_queue p) (p_with_queue p []) in
  if term then execute_teardown E p1
  else match p_queue p1, p_def p1, p_td p1 with
       | [], [], _ :: _ => execute_teardown E p1
       | _, _, _ => p1
       end.
Definition eval (E : env) (p : pipe) : pstate := to_state (eval_pipe E p).

(** executor.rs:166-211 [digest], before the conversion to a state *)
Definition digest_pipe (E : env) (tok status size : N) (p : pipe) : pipe :=
  match nget tok (p_def p) with
  | None => eval_pipe E p
  | Some t =>
      let c0 := emit (EvHandle tok (t_id t)) (set_grpc status size (p_ctx p)) in
      let p0 := mkPipe c0 (p_queue p) (ndel tok (p_def p)) (p_done p) (p_td p) (p_term p) in
      let (o, c) := step E t (p_ctx p0) in
      let p1 := p_with_ctx p0 c in
      match o with
      | ODone => eval_pipe E (p_with_done p1 (t_id t :: p_done p1))
      | ORequeued l =>
          eval_pipe E (mkPipe (emit (EvDone (t_id t)) (p_ctx p1)) (l ++ p_queue p1) (p_def p1)
                         (t_id t :: p_done p1) (p_td p1) (p_term p1))
      | ODeferred tok' t' => eval_pipe E (def_insert tok' t' p1)
      | OFailed => eval_pipe E p1
      | OTerminate fin =>
          let c' := drop_tasks (p_queue p1) (run_terminal E fin (p_ctx p1)) in
          eval_pipe E (execute_teardown E (mkPipe c' [] (p_def p1) (p_done p1) (p_td p1) true))
      end
  end.
Definition digest (E : env) (tok status size : N) (p : pipe) : pstate := to_state (digest_pipe E tok status size p).

(** executor.rs:213-215 [requires_pause] *)
Definition requires_pause (p : pipe) : bool := tripped (p_ctx p).
