(** Model of KF/tracing/processor.rs (PR): the buffer of finished spans, shared by all
    requests of an instance.  A span is opaque. *)
From Coq Require Import List Bool Arith.
Import ListNotations.

(** PR:38-48 [BufferState], [BufferingSpanProcessor] *)
Record buffer (A : Type) := mkBuf { b_queue : list A; b_logged : bool; b_max : nat }.
Arguments mkBuf {A}. Arguments b_queue {A}. Arguments b_logged {A}. Arguments b_max {A}.

(** PR:51-64 [with_capacity]; [new] uses 100 *)
Definition buf0 {A} (max : nat) : buffer A := mkBuf [] false max.

(** what callers do: PR:107-124 [on_end], PR:67-71 [take_pending_spans], PR:86-90 [clear]
    (also by [shutdown]) *)
Inductive sop (A : Type) := SEnd (s : A) | STake | SClear.
Arguments SEnd {A}. Arguments STake {A}. Arguments SClear {A}.

(** the new buffer, the spans handed out, and whether a warning is logged *)
Definition on_end {A} (s : A) (b : buffer A) : buffer A * bool :=
  if Nat.leb (b_max b) (length (b_queue b))
  then (mkBuf (tl (b_queue b) ++ [s]) true (b_max b), negb (b_logged b))
  else (mkBuf (b_queue b ++ [s]) (b_logged b) (b_max b), false).
Definition take_pending {A} (b : buffer A) : list A * buffer A := (b_queue b, mkBuf [] false (b_max b)).
Definition clear {A} (b : buffer A) : buffer A := mkBuf [] false (b_max b).

(** A history: the buffer, the lists handed out and the warnings, oldest first *)
Record strace (A : Type) := mkSt { st_buf : buffer A; st_out : list (list A); st_warn : list bool }.
Arguments mkSt {A}. Arguments st_buf {A}. Arguments st_out {A}. Arguments st_warn {A}.
Definition sstep {A} (t : strace A) (o : sop A) : strace A :=
  match o with
  | SEnd s => let '(b, w) := on_end s (st_buf t) in mkSt b (st_out t) (st_warn t ++ [w])
  | STake => let '(l, b) := take_pending (st_buf t) in mkSt b (st_out t ++ [l]) (st_warn t ++ [false])
  | SClear => mkSt (clear (st_buf t)) (st_out t) (st_warn t ++ [false])
  end.
Definition srun {A} (max : nat) (l : list (sop A)) : strace A := fold_left sstep l (mkSt (buf0 max) [] []).
