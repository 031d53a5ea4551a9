(** Posted messages, timers and intervals (crates/textual/src/context.rs) as a
    transition system.  Each spawned tokio task is a value; a label says what the
    scheduler, the clock, the application or the event loop does next, so a list
    of labels is one schedule.  Simplified: instants are natural numbers (any unit);
    a [select!] with both branches ready takes the one the label names (tokio picks
    at random); a late ticker catches up tick by tick (tokio's default [Burst]);
    the unbounded channel never blocks; log lines are left out. *)
From Coq Require Import List Arith Bool.
From Verif Require Import Text_Model.
Import ListNotations.

Section Timers.
Variable M : Type.

(** [MessageEnvelope::new] as used by context.rs:88, 111 and 153: the message and
    the id and type of the widget the context is bound to *)
Record info := { from_id : option text; from_type : text }.
Record envelope := { e_message : M; e_info : info }.

(** The task of [set_timer] (crates/textual/src/context.rs:101-119) and of
    [set_interval] (137-173).  [t_due]/[t_next] is [None] until the task first runs:
    the sleep and the ticker are created inside the task (108, 149-150).
    [t_signal]: the one-shot cancel channel has fired (188-192). *)
Inductive task :=
| Timer (delay : nat) (due : option nat) (message : M) (who : info) (running : bool)
| Interval (period : nat) (next : option nat) (signal : bool) (calls : nat) (message : nat -> M) (who : info) (running : bool).

Record state := { s_now : nat; s_tasks : list task; s_queue : list envelope; s_open : bool }.

(** What happens next. *)
Inductive label :=
| Advance (d : nat)                                   (* time passes *)
| Post (m : M) (who : info)                           (* AppContext::post *)
| SetTimer (delay : nat) (m : M) (who : info)
| SetInterval (period : nat) (m : nat -> M) (who : info)
| Cancel (i : nat)                                    (* IntervalHandle::cancel, or its drop *)
| Poll (i : nat) (tick_first : bool)                  (* the runtime runs task i once *)
| Recv                                                (* the event loop takes a message *)
| Close.                                              (* the event loop is gone *)

(** What can be observed: a message sent at some time (by a task, or by [post]), a message received. *)
Inductive output := Sent (by_task : option nat) (at_time : nat) (e : envelope) | Received (e : envelope).

Fixpoint set_nth (i : nat) (t : task) (l : list task) : list task :=
  match l, i with
  | [], _ => []
  | _ :: r, O => t :: r
  | x :: r, S j => x :: set_nth j t r
  end.

(** One run of a task, up to its next wait or its next message: the task after it
    and the envelope it tries to send.
    Timer: crates/textual/src/context.rs:106-118; interval: 148-171 (an interval
    whose receiver is gone stops at 154-157; [interval_at] panics on a zero period,
    which ends the task). *)
Definition poll (now : nat) (open : bool) (tick_first : bool) (t : task) : task * option envelope :=
  match t with
  | Timer delay due m who running =>
      if running then
        let d := match due with Some d => d | None => now + delay end in
        if d <=? now then (Timer delay (Some d) m who false, Some {| e_message := m; e_info := who |})
        else (Timer delay (Some d) m who true, None)
      else (t, None)
  | Interval period next signal calls m who running =>
      if running then
        if (period =? 0) then (Interval period next signal calls m who false, None) else
        let n := match next with Some n => n | None => now + period end in
        if (n <=? now) && (tick_first || negb signal) then
          (Interval period (Some (n + period)) signal (S calls) m who open, Some {| e_message := m calls; e_info := who |})
        else if signal then (Interval period (Some n) signal calls m who false, None)
        else (Interval period (Some n) signal calls m who true, None)
      else (t, None)
  end.

(** [UnboundedSender::send]: fails when the receiver is gone *)
Definition send (s : state) (src : option nat) (e : envelope) : state * list output :=
  if s_open s then
    ({| s_now := s_now s; s_tasks := s_tasks s; s_queue := s_queue s ++ [e]; s_open := true |}, [Sent src (s_now s) e])
  else (s, []).

Definition with_tasks (s : state) (l : list task) : state :=
  {| s_now := s_now s; s_tasks := l; s_queue := s_queue s; s_open := s_open s |}.

(** crates/textual/src/context.rs:87-192, crates/textual/src/lib.rs:1097-1114 (the receiving end) *)
Definition step (s : state) (l : label) : state * list output :=
  match l with
  | Advance d => ({| s_now := s_now s + d; s_tasks := s_tasks s; s_queue := s_queue s; s_open := s_open s |}, [])
  | Post m who => send s None {| e_message := m; e_info := who |}
  | SetTimer delay m who => (with_tasks s (s_tasks s ++ [Timer delay None m who true]), [])
  | SetInterval period m who => (with_tasks s (s_tasks s ++ [Interval period None false 0 m who true]), [])
  | Cancel i =>
      match nth_error (s_tasks s) i with
      | Some (Interval p n _ c m w r) => (with_tasks s (set_nth i (Interval p n true c m w r) (s_tasks s)), [])
      | _ => (s, [])
      end
  | Poll i tick_first =>
      match nth_error (s_tasks s) i with
      | None => (s, [])
      | Some t =>
          let (t', o) := poll (s_now s) (s_open s) tick_first t in
          let s' := with_tasks s (set_nth i t' (s_tasks s)) in
          match o with Some e => send s' (Some i) e | None => (s', []) end
      end
  | Recv =>
      match s_queue s with
      | [] => (s, [])
      | e :: q => ({| s_now := s_now s; s_tasks := s_tasks s; s_queue := q; s_open := s_open s |}, [Received e])
      end
  | Close => ({| s_now := s_now s; s_tasks := s_tasks s; s_queue := []; s_open := false |}, [])
  end.

(** A whole schedule: the state after it and everything observed. *)
Fixpoint run (s : state) (ls : list label) : state * list output :=
  match ls with
  | [] => (s, [])
  | l :: r => let (s1, o1) := step s l in let (s2, o2) := run s1 r in (s2, o1 ++ o2)
  end.

Definition start : state := {| s_now := 0; s_tasks := []; s_queue := []; s_open := true |}.
End Timers.
