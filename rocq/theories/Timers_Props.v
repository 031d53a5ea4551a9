(** Posted messages, timers and intervals (C54), for every schedule. *)
From Coq Require Import String List Arith Bool Lia.
From Verif Require Import Text_Model Timers_Model Timers_Spec Timers_Proofs.
Import ListNotations.
Open Scope nat_scope.
Notation length := List.length.

Section Schedules.
Context {M : Type}.
Implicit Types (s : state M) (ls : list (label M)).

(** *** C54: messages arrive in the order in which they were sent, each once; as
    long as the event loop lives none is lost. *)
Theorem C54_order : forall ls, let (s, os) := run start ls in
  (s_open s = true -> received os ++ s_queue s = sent os) /\ exists rest, received os ++ rest = sent os.
Proof. intros ls. pose proof (run_fifo ls (@start M) eq_refl) as H. destruct (run start ls). exact H. Qed.

(** *** C54: the message number k of an interval is what its function gives the
    k-th time, carries the sender of the context that set it, and is sent no earlier
    than k+1 periods after the interval was set; so there are never more messages
    than whole periods that have passed. *)
Theorem C54_interval : forall s period f who ls,
  let i := length (s_tasks s) in
  let (s', os) := run s (SetInterval period f who :: ls) in
  (forall k t e, nth_error (sent_by i os) k = Some (t, e) ->
     s_now s + (k + 1) * period <= t /\ e_message e = f k /\ e_info e = who) /\
  s_now s + length (sent_by i os) * period <= s_now s'.
Proof.
  intros s period f who ls i. cbn [run step]. set (s1 := with_tasks s (s_tasks s ++ [Interval period None false 0 f who true])).
  assert (H : interval_ok i (s_now s) period f who s1 []).
  { split; [cbn; lia|]. split; [intros [|k] t e N; discriminate|]. exists None, false, 0, true. split; [|auto].
    cbn. rewrite nth_error_app2 by (unfold i; lia). unfold i. rewrite Nat.sub_diag. reflexivity. }
  pose proof (run_interval i (s_now s) period f who ls s1 [] H) as R. destruct (run s1 ls) as [s2 os]. cbn [fst snd app] in R.
  destruct R as (B & T & _). cbn [app]. split; [exact T|exact B].
Qed.

(** *** C54: a tick that is due is sent the next time the task runs: one message,
    appended to the queue. *)
Theorem C54_tick_fires : forall s i period n calls f who b,
  nth_error (s_tasks s) i = Some (Interval period (Some n) false calls f who true) -> period <> 0 -> n <= s_now s -> s_open s = true ->
  let e := {| e_message := f calls; e_info := who |} in
  snd (step s (Poll i b)) = [Sent (Some i) (s_now s) e] /\ s_queue (fst (step s (Poll i b))) = s_queue s ++ [e].
Proof.
  intros s i period n calls f who b E P Q O e. cbn [step]. rewrite E. cbn [poll]. destruct (period =? 0) eqn:P0; [apply Nat.eqb_eq in P0; lia|].
  replace (n <=? s_now s) with true by (symmetry; apply Nat.leb_le; exact Q). replace (b || negb false) with true by (destruct b; reflexivity).
  cbn [andb]. unfold send. cbn [with_tasks s_open]. rewrite O. cbn. auto.
Qed.

(** *** C54: an interval cancelled while no tick of it is due, whose task runs
    again before time passes, sends nothing after the cancellation, whatever
    happens later. *)
Theorem C54_cancelled : forall s i period next g calls f who ls b ls',
  nth_error (s_tasks s) i = Some (Interval period next g calls f who true) ->
  match next with Some n => s_now s < n | None => True end -> forallb timeless ls = true ->
  sent_by i (snd (run s (Cancel i :: ls ++ Poll i b :: ls'))) = [].
Proof.
  intros s i period next g calls f who ls b ls' E Nx T. cbn [run step]. rewrite E.
  assert (W : waiting i (with_tasks s (set_nth i (Interval period next true calls f who true) (s_tasks s)))).
  { exists period, next, calls, f, who. split; [|exact Nx]. cbn. apply nth_set_same. apply nth_error_Some. congruence. }
  pose proof (run_waiting i ls b ls' _ W T) as R. destruct (run _ _) as [s2 o2]. exact R.
Qed.

(** *** C54: an interval that is cancelled, or whose handle is dropped, before
    its task first runs never sends anything, in any schedule. *)
Theorem C54_dropped_at_once : forall s period f who ls,
  sent_by (length (s_tasks s)) (snd (run s (SetInterval period f who :: Cancel (length (s_tasks s)) :: ls))) = [].
Proof.
  intros s period f who ls. set (i := length (s_tasks s)). cbn [run step]. set (s1 := with_tasks s (s_tasks s ++ [Interval period None false 0 f who true])).
  assert (E : nth_error (s_tasks s1) i = Some (Interval period None false 0 f who true)).
  { cbn. rewrite nth_error_app2 by (unfold i; lia). unfold i. rewrite Nat.sub_diag. reflexivity. }
  rewrite E. assert (U : unborn i (with_tasks s1 (set_nth i (Interval period None true 0 f who true) (s_tasks s1)))).
  { exists period, 0, f, who. cbn [with_tasks s_tasks]. apply nth_set_same. apply nth_error_Some. congruence. }
  pose proof (run_unborn i ls _ U) as R. destruct (run _ ls) as [s2 o2]. exact R.
Qed.

(** *** C54: a task that has ended sends nothing more; the cancel branch ends it. *)
Theorem C54_ended : forall s i period next calls f who ls,
  nth_error (s_tasks s) i = Some (Interval period next true calls f who true) ->
  sent_by i (snd (run (fst (step s (Poll i false))) ls)) = [] /\ snd (step s (Poll i false)) = [].
Proof.
  intros s i period next calls f who ls E. cbn [step]. rewrite E. cbn [poll orb negb andb].
  assert (L : i < length (s_tasks s)) by (apply nth_error_Some; congruence).
  destruct (period =? 0); [|rewrite andb_false_r]; (split; [apply run_ended; eexists; split; [apply nth_set_same; exact L|reflexivity]|reflexivity]).
Qed.

(** *** C54: a timer sends its message at most once, not before its delay. *)
Theorem C54_timer : forall s delay m who ls,
  let i := length (s_tasks s) in
  let os := snd (run s (SetTimer delay m who :: ls)) in
  sent_by i os = [] \/ exists t, sent_by i os = [(t, {| e_message := m; e_info := who |})] /\ s_now s + delay <= t.
Proof.
  intros s delay m who ls i. cbn [run step]. set (s1 := with_tasks s (s_tasks s ++ [Timer delay None m who true])).
  assert (H : timer_ok i (s_now s) delay m who s1 []).
  { split; [cbn; lia|]. exists None, true. split; [|auto].
    cbn. rewrite nth_error_app2 by (unfold i; lia). unfold i. rewrite Nat.sub_diag. reflexivity. }
  pose proof (run_timer i (s_now s) delay m who ls s1 [] H) as R. destruct (run s1 ls) as [s2 os]. cbn [fst snd app] in *.
  destruct R as (_ & _ & _ & _ & _ & R). exact R.
Qed.
Theorem C54_timer_fires : forall s i delay d m who b,
  nth_error (s_tasks s) i = Some (Timer delay (Some d) m who true) -> d <= s_now s -> s_open s = true ->
  snd (step s (Poll i b)) = [Sent (Some i) (s_now s) {| e_message := m; e_info := who |}].
Proof.
  intros s i delay d m who b E Q O. cbn [step]. rewrite E. cbn [poll].
  replace (d <=? s_now s) with true by (symmetry; apply Nat.leb_le; exact Q). unfold send. cbn [with_tasks s_open]. rewrite O. reflexivity.
Qed.
End Schedules.

Definition me : info := {| from_id := Some (str "clock"); from_type := str "Clock" |}.
(** *** C54, refuted: after [cancel()] has returned an interval may still send a message (a tick is due at that moment). *)
Theorem C54_cancel_refuted : exists ls ls' : list (label nat),
  sent_by 0 (snd (run (fst (run start ls)) (Cancel 0 :: ls'))) <> [].
Proof. exists [SetInterval 10 (fun k => k) me; Poll 0 true; Advance 10], [Poll 0 true]. vm_compute. discriminate. Qed.

(** A schedule with two intervals and a timer; the first interval is cancelled in time. *)
Example C54_example :
  let ls := [SetInterval 10 (fun k => k) me; SetTimer 15 100 me; SetInterval 7 (fun k => k + 50) me; Poll 2 true; Poll 0 true; Poll 1 true;
             Advance 11; Poll 0 true; Recv; Poll 2 false; Cancel 0; Poll 0 true; Advance 20; Poll 1 true; Poll 2 true; Poll 2 true; Poll 0 true; Recv; Recv] in
  map (fun e => e_message e) (received (snd (run start ls))) = [0; 50; 100] /\
  map (fun p => (fst p, e_message (snd p))) (sent_by 2 (snd (run start ls))) = [(11, 50); (31, 51); (31, 52)] /\
  map (fun p => (fst p, e_message (snd p))) (sent_by 0 (snd (run start ls))) = [(11, 0)] /\
  map (fun e => e_message e) (s_queue (fst (run start ls))) = [51; 52].
Proof. vm_compute. tauto. Qed.
(** The state in which that cancellation happens meets the hypothesis of [C54_cancelled]. *)
Example C54_cancelled_example : exists s calls f, s = fst (run start [SetInterval 10 (fun k => k) me; Poll 0 true; Advance 11; Poll 0 true]) /\
  nth_error (s_tasks s) 0 = Some (Interval 10 (Some 20) false calls f me true) /\ s_now s < 20.
Proof. eexists. exists 1, (fun k => k). split; [reflexivity|]. split; [reflexivity|]. cbn. lia. Qed.

Print Assumptions C54_order.
Print Assumptions C54_interval.
Print Assumptions C54_tick_fires.
Print Assumptions C54_cancelled.
Print Assumptions C54_dropped_at_once.
Print Assumptions C54_ended.
Print Assumptions C54_timer.
Print Assumptions C54_timer_fires.
Print Assumptions C54_cancel_refuted.
