From Coq Require Import List Arith Bool Lia.
From Verif Require Import Text_Model Timers_Model Timers_Spec.
Import ListNotations.
Arguments Sent {M}. Arguments Received {M}. Arguments Timer {M}. Arguments Interval {M}.
Arguments s_now {M}. Arguments s_tasks {M}. Arguments s_queue {M}. Arguments s_open {M}. Arguments e_message {M}. Arguments e_info {M}.
Arguments Advance {M}. Arguments Post {M}. Arguments SetTimer {M}. Arguments SetInterval {M}. Arguments Cancel {M}. Arguments Poll {M}. Arguments Recv {M}. Arguments Close {M}.
Arguments step {M}. Arguments run {M}. Arguments poll {M}. Arguments send {M}. Arguments set_nth {M}. Arguments with_tasks {M}. Arguments start {M}.

Section P.
Context {M : Type}.
Implicit Types (s : state M) (l : label M) (ls : list (label M)) (os : list (output M)) (t : task M).

(** *** Lists *)
Lemma nth_set_same : forall (l : list (task M)) i t, i < length l -> nth_error (set_nth i t l) i = Some t.
Proof. induction l as [|x l IH]; intros [|i] t H; cbn in *; try lia; [reflexivity|apply IH; lia]. Qed.
Lemma nth_set_other : forall (l : list (task M)) i j t, i <> j -> nth_error (set_nth i t l) j = nth_error l j.
Proof. induction l as [|x l IH]; intros [|i] [|j] t H; cbn; try reflexivity; try congruence. apply IH. congruence. Qed.
Lemma sent_by_app : forall i (a b : list (output M)), sent_by i (a ++ b) = sent_by i a ++ sent_by i b.
Proof. intros. apply flat_map_app. Qed.
Lemma sent_app : forall (a b : list (output M)), sent (a ++ b) = sent a ++ sent b.
Proof. intros. apply flat_map_app. Qed.
Lemma received_app : forall (a b : list (output M)), received (a ++ b) = received a ++ received b.
Proof. intros. apply flat_map_app. Qed.
Lemma run_app : forall ls1 ls2 s, run s (ls1 ++ ls2) =
  (fst (run (fst (run s ls1)) ls2), snd (run s ls1) ++ snd (run (fst (run s ls1)) ls2)).
Proof.
  induction ls1 as [|l ls1 IH]; intros ls2 s; cbn [app run fst snd].
  - destruct (run s ls2); reflexivity.
  - destruct (step s l) as [s1 o1]. rewrite IH. destruct (run s1 ls1) as [s2 o2]. cbn [fst snd]. rewrite app_assoc. reflexivity.
Qed.

(** *** What a step does to one task *)
Lemma step_now : forall s l, s_now s <= s_now (fst (step s l)).
Proof.
  intros s l. destruct l; cbn; try lia.
  - unfold send. destruct (s_open s); cbn; lia.
  - destruct (nth_error _ _) as [[]|]; cbn; lia.
  - destruct (nth_error _ _); [|cbn; lia]. destruct (poll _ _ _ _) as [t' [e|]]; [|cbn; lia]. unfold send. cbn. destruct (s_open s); cbn; lia.
  - destruct (s_queue s); cbn; lia.
Qed.
(** The task [i] and what it sends in a step: nothing happens to it, its signal is set, or it is polled. *)
Lemma step_task : forall s l i t, nth_error (s_tasks s) i = Some t ->
  let (s', os) := step s l in
  (nth_error (s_tasks s') i = Some t /\ sent_by i os = [] /\ forall b, l <> Poll i b) \/
  (l = Cancel i /\ exists p n g c m w r, t = Interval p n g c m w r /\ nth_error (s_tasks s') i = Some (Interval p n true c m w r) /\ sent_by i os = []) \/
  (exists b, l = Poll i b /\ s_now s' = s_now s /\ s_open s' = s_open s /\
     nth_error (s_tasks s') i = Some (fst (poll (s_now s) (s_open s) b t)) /\
     sent_by i os = match snd (poll (s_now s) (s_open s) b t) with Some e => if s_open s then [(s_now s, e)] else [] | None => [] end).
Proof.
  intros s l i t H. assert (L : i < length (s_tasks s)) by (apply nth_error_Some; congruence).
  destruct (step s l) as [s' os] eqn:E. destruct l as [d|m w|d m w|p m w|j|j b| |]; cbn [step] in E.
  - injection E as <- <-. left. repeat split; auto; intros; discriminate.
  - unfold send in E. destruct (s_open s); injection E as <- <-; left; repeat split; auto; intros; discriminate.
  - injection E as <- <-. left. cbn. rewrite nth_error_app1 by exact L. repeat split; auto; intros; discriminate.
  - injection E as <- <-. left. cbn. rewrite nth_error_app1 by exact L. repeat split; auto; intros; discriminate.
  - destruct (Nat.eq_dec j i) as [->|N].
    + rewrite H in E. destruct t as [d0 du m w r|p n g c m w r]; injection E as <- <-.
      * left. repeat split; auto; intros; discriminate.
      * right. left. split; [reflexivity|]. exists p, n, g, c, m, w, r. cbn. rewrite nth_set_same by exact L. auto.
    + destruct (nth_error (s_tasks s) j) as [[]|]; injection E as <- <-; left; cbn; rewrite ?nth_set_other by exact N; repeat split; auto; intros; discriminate.
  - destruct (Nat.eq_dec j i) as [->|N].
    + rewrite H in E. right. right. exists b. destruct (poll (s_now s) (s_open s) b t) as [t' o] eqn:P. cbn [fst snd].
      destruct o as [e|].
      * unfold send in E. cbn [with_tasks s_open] in E. destruct (s_open s) eqn:O; injection E as <- <-; cbn; rewrite ?nth_set_same by exact L; rewrite ?Nat.eqb_refl; auto.
      * injection E as <- <-. cbn. rewrite nth_set_same by exact L. auto.
    + left. destruct (nth_error (s_tasks s) j) as [t0|]; [|injection E as <- <-; repeat split; auto; intros; congruence].
      destruct (poll (s_now s) (s_open s) b t0) as [t' [e|]].
      * unfold send in E. cbn [with_tasks s_open] in E. destruct (s_open s); injection E as <- <-; cbn; rewrite ?nth_set_other by exact N; (split; [exact H|]); (split; [|intros; congruence]); [|reflexivity].
        destruct (Nat.eqb_spec i j); [congruence|auto].
      * injection E as <- <-. cbn. rewrite nth_set_other by exact N. repeat split; auto; intros; congruence.
  - destruct (s_queue s); injection E as <- <-; left; repeat split; auto; intros; discriminate.
  - injection E as <- <-. left. repeat split; auto; intros; discriminate.
Qed.

(** *** First in, first out *)
Lemma step_fifo : forall s l, let (s', os) := step s l in
  (s_open s' = true -> received os ++ s_queue s' = s_queue s ++ sent os) /\
  (s_open s = false -> s_open s' = false) /\ (s_open s = false -> sent os = []) /\
  (s_open s' = false -> s_open s = true -> received os = [] /\ sent os = []).
Proof.
  intros s l. destruct (step s l) as [s' os] eqn:E. destruct l as [d|m w|d m w|p m w|j|j b| |]; cbn [step] in E.
  - injection E as <- <-. cbn. rewrite app_nil_r. auto.
  - unfold send in E. destruct (s_open s) eqn:O; injection E as <- <-; cbn; rewrite ?app_nil_r, ?O; repeat split; auto; discriminate.
  - injection E as <- <-. cbn. rewrite app_nil_r. auto.
  - injection E as <- <-. cbn. rewrite app_nil_r. auto.
  - destruct (nth_error (s_tasks s) j) as [[]|]; injection E as <- <-; cbn; rewrite app_nil_r; auto.
  - destruct (nth_error (s_tasks s) j) as [t|]; [|injection E as <- <-; cbn; rewrite app_nil_r; auto].
    destruct (poll (s_now s) (s_open s) b t) as [t' [e|]].
    + unfold send in E. cbn [with_tasks s_open] in E. destruct (s_open s) eqn:O; injection E as <- <-; cbn; rewrite ?app_nil_r, ?O; repeat split; auto; discriminate.
    + injection E as <- <-. cbn. rewrite app_nil_r. auto.
  - destruct (s_queue s) as [|e q] eqn:Q; injection E as <- <-; cbn; rewrite ?app_nil_r, ?Q; repeat split; auto; intros; congruence.
  - injection E as <- <-. cbn. repeat split; auto; discriminate.
Qed.
Lemma step_closed : forall s l, s_open s = false -> s_queue s = [] -> s_queue (fst (step s l)) = [] /\ s_open (fst (step s l)) = false /\ received (snd (step s l)) = [].
Proof.
  intros s l O Q. destruct l as [d|m w|d m w|p m w|j|j b| |]; cbn [step]; try (cbn; auto; fail).
  - unfold send. rewrite O. cbn. auto.
  - destruct (nth_error (s_tasks s) j) as [[]|]; cbn; auto.
  - destruct (nth_error (s_tasks s) j) as [t|]; [|cbn; auto].
    destruct (poll (s_now s) (s_open s) b t) as [t' [e|]]; [|cbn; auto]. unfold send. cbn [with_tasks s_open]. rewrite O. cbn. auto.
  - rewrite Q. cbn. auto.
Qed.
Lemma run_closed : forall ls s, s_open s = false -> s_queue s = [] -> received (snd (run s ls)) = [] /\ sent (snd (run s ls)) = [].
Proof.
  induction ls as [|l ls IH]; intros s O Q; [auto|]. cbn [run]. destruct (step_closed s l O Q) as (Q' & O' & R). pose proof (step_fifo s l) as F.
  destruct (step s l) as [s1 o1]. cbn [fst snd] in *. destruct F as (_ & _ & F & _). specialize (IH s1 O' Q'). destruct (run s1 ls) as [s2 o2]. cbn [snd] in *.
  rewrite received_app, sent_app, R, (F O). exact IH.
Qed.
Lemma run_fifo : forall ls s, s_open s = true -> let (s', os) := run s ls in
  (s_open s' = true -> received os ++ s_queue s' = s_queue s ++ sent os) /\ exists lost, received os ++ lost = s_queue s ++ sent os.
Proof.
  induction ls as [|l ls IH]; intros s O; cbn [run].
  - split; [intros _; cbn; rewrite app_nil_r; reflexivity|]. exists (s_queue s). cbn. rewrite app_nil_r. reflexivity.
  - pose proof (step_fifo s l) as F. destruct (step s l) as [s1 o1] eqn:E. destruct F as (F1 & _ & _ & F4).
    destruct (s_open s1) eqn:O1.
    + specialize (IH s1 O1). destruct (run s1 ls) as [s2 o2]. destruct IH as (I1 & lost & I2). specialize (F1 eq_refl). split.
      * intros O2. rewrite received_app, sent_app, <- app_assoc, (I1 O2), !app_assoc. f_equal. exact F1.
      * exists lost. rewrite received_app, sent_app, <- app_assoc, I2, !app_assoc. f_equal. exact F1.
    + destruct (F4 eq_refl O) as [R S]. assert (Q1 : s_queue s1 = []).
      { destruct l as [d|m w|d m w|p m w|j|j b| |]; cbn [step] in E; try (injection E as <- <-; cbn in O1; congruence).
        - unfold send in E. rewrite O in E. injection E as <- <-. cbn in O1. discriminate.
        - destruct (nth_error (s_tasks s) j) as [[]|]; injection E as <- <-; cbn in O1; congruence.
        - destruct (nth_error (s_tasks s) j) as [t|]; [|injection E as <- <-; congruence].
          destruct (poll (s_now s) (s_open s) b t) as [t' [e|]]; [|injection E as <- <-; cbn in O1; congruence].
          unfold send in E. cbn [with_tasks s_open] in E. rewrite O in E. injection E as <- <-. cbn in O1. discriminate.
        - destruct (s_queue s); injection E as <- <-; cbn in O1; congruence.
        - injection E as <- <-. reflexivity. }
      destruct (run_closed ls s1 O1 Q1) as [R2 S2]. pose proof (step_closed) as _.
      assert (O2 : s_open (fst (run s1 ls)) = false).
      { clear -O1 Q1. revert s1 O1 Q1. induction ls as [|l ls IH]; intros s O Q; [exact O|]. cbn [run].
        destruct (step_closed s l O Q) as (Q' & O' & _). destruct (step s l) as [s1 o1]. cbn [fst] in *. specialize (IH s1 O' Q'). destruct (run s1 ls). exact IH. }
      destruct (run s1 ls) as [s2 o2]. cbn [fst snd] in *. split; [intros H; congruence|].
      exists (s_queue s). rewrite received_app, sent_app, R, R2, S, S2. cbn. rewrite app_nil_r. reflexivity.
Qed.

(** *** Intervals *)
Section OneInterval.
Variables (i c0 p : nat) (f : nat -> M) (w : info).
Definition in_time (outs : list (nat * envelope M)) : Prop :=
  forall k (t : nat) e, nth_error outs k = Some (t, e) -> c0 + (k + 1) * p <= t /\ e_message e = f k /\ e_info e = w.
Definition interval_ok (s : state M) (outs : list (nat * envelope M)) : Prop :=
  c0 + length outs * p <= s_now s /\ in_time outs /\
  exists next g c r, nth_error (s_tasks s) i = Some (Interval p next g c f w r) /\
    (r = true -> c = length outs /\ match next with None => outs = [] | Some n => c0 + (length outs + 1) * p <= n end).
Lemma in_time_snoc : forall outs (t : nat) e, in_time outs -> c0 + (length outs + 1) * p <= t -> e_message e = f (length outs) -> e_info e = w -> in_time (outs ++ [(t, e)]).
Proof.
  intros outs t e H B Em Ei k t' e' N. destruct (Nat.lt_ge_cases k (length outs)) as [L|L].
  - rewrite nth_error_app1 in N by exact L. apply H. exact N.
  - rewrite nth_error_app2 in N by exact L. destruct (k - length outs) as [|j] eqn:D; cbn in N; [|destruct j; discriminate].
    injection N as <- <-. assert (k = length outs) by lia. subst k. auto.
Qed.
Lemma step_interval : forall s l outs, interval_ok s outs -> interval_ok (fst (step s l)) (outs ++ sent_by i (snd (step s l))).
Proof.
  intros s l outs (N & T & next & g & c & r & E & R). pose proof (step_now s l) as Mon. pose proof (step_task s l i _ E) as S.
  destruct (step s l) as [s' os] eqn:St. cbn [fst snd] in *. destruct S as [(E' & O & NP)|[(-> & q & n' & g' & c' & m' & w' & r' & I & E' & O)|(b & -> & Nw & Op & E' & O)]].
  - rewrite O, app_nil_r. split; [lia|]. split; [exact T|]. exists next, g, c, r. auto.
  - injection I as <- <- <- <- <- <- <-. rewrite O, app_nil_r. split; [lia|]. split; [exact T|]. exists next, true, c, r. auto.
  - destruct r; cbn [poll] in E', O.
    + destruct (R eq_refl) as [-> Nx]. destruct (p =? 0) eqn:P0.
      { cbn [fst snd] in *. rewrite O, app_nil_r. split; [lia|]. split; [exact T|]. exists next, g, (length outs), false. split; [exact E'|discriminate]. }
      apply Nat.eqb_neq in P0. set (n := match next with Some n => n | None => s_now s + p end) in *.
      assert (B : c0 + (length outs + 1) * p <= n). { unfold n. destruct next; [exact Nx|]. subst outs. cbn. lia. }
      destruct ((n <=? s_now s) && (b || negb g)) eqn:Q; cbn [fst snd] in E', O.
      * apply andb_true_iff in Q. destruct Q as [Q _]. apply Nat.leb_le in Q. destruct (s_open s) eqn:Os.
        { rewrite O. split; [rewrite app_length; cbn [length]; nia|]. split; [apply in_time_snoc; cbn; auto; lia|]. exists (Some (n + p)), g, (S (length outs)), true. split; [exact E'|].
          intros _. rewrite app_length. cbn [length]. split; [lia|nia]. }
        { rewrite O, app_nil_r. split; [lia|]. split; [exact T|]. exists (Some (n + p)), g, (S (length outs)), false. split; [exact E'|discriminate]. }
      * destruct g; cbn [fst snd] in E', O; rewrite O, app_nil_r; (split; [lia|]); (split; [exact T|]).
        { exists (Some n), true, (length outs), false. split; [exact E'|discriminate]. }
        { exists (Some n), false, (length outs), true. split; [exact E'|]. intros _. auto. }
    + cbn [fst snd] in E', O. rewrite O, app_nil_r. split; [lia|]. split; [exact T|]. exists next, g, c, false. split; [exact E'|discriminate].
Qed.
Lemma run_interval : forall ls s outs, interval_ok s outs -> interval_ok (fst (run s ls)) (outs ++ sent_by i (snd (run s ls))).
Proof.
  induction ls as [|l ls IH]; intros s outs H; cbn [run]. { cbn. rewrite app_nil_r. exact H. }
  pose proof (step_interval s l outs H) as H1. destruct (step s l) as [s1 o1]. cbn [fst snd] in H1. specialize (IH s1 _ H1).
  destruct (run s1 ls) as [s2 o2]. cbn [fst snd] in *. rewrite sent_by_app, app_assoc. exact IH.
Qed.
End OneInterval.

(** *** Ended tasks send nothing *)
Definition running (t : task M) : bool := match t with Timer _ _ _ _ r => r | Interval _ _ _ _ _ _ r => r end.
Definition ended (i : nat) (s : state M) : Prop := exists t, nth_error (s_tasks s) i = Some t /\ running t = false.
Lemma step_ended : forall i s l, ended i s -> ended i (fst (step s l)) /\ sent_by i (snd (step s l)) = [].
Proof.
  intros i s l (t & E & R). pose proof (step_task s l i t E) as S. destruct (step s l) as [s' os]. cbn [fst snd] in *.
  destruct S as [(E' & O & NP)|[(-> & q & n & g & c & m & w & r & -> & E' & O)|(b & -> & _ & _ & E' & O)]].
  - split; [exists t; auto|exact O].
  - split; [eexists; split; [exact E'|exact R]|exact O].
  - destruct t as [d du m w r|p n g c m w r]; cbn in R; subst r; cbn in E', O; split; auto; eexists; (split; [exact E'|reflexivity]).
Qed.
Lemma run_ended : forall i ls s, ended i s -> sent_by i (snd (run s ls)) = [].
Proof.
  intros i. induction ls as [|l ls IH]; intros s H; [reflexivity|]. cbn [run]. destruct (step_ended i s l H) as [H1 O]. destruct (step s l) as [s1 o1]. cbn [fst snd] in *.
  specialize (IH s1 H1). destruct (run s1 ls) as [s2 o2]. cbn [snd] in *. rewrite sent_by_app, O. exact IH.
Qed.

(** *** Cancelled intervals *)
Definition waiting (i : nat) (s : state M) : Prop :=
  exists p next c f w, nth_error (s_tasks s) i = Some (Interval p next true c f w true) /\
    match next with Some n => s_now s < n | None => True end.
Lemma timeless_now : forall s l, timeless l = true -> s_now (fst (step s l)) = s_now s.
Proof.
  intros s l Tl. destruct l; cbn [step]; try discriminate; try reflexivity.
  - unfold send. destruct (s_open s); reflexivity.
  - destruct (nth_error _ _) as [[]|]; reflexivity.
  - destruct (nth_error _ _); [|reflexivity]. destruct (poll _ _ _ _) as [t' [e|]]; [|reflexivity]. unfold send. cbn. destruct (s_open s); reflexivity.
  - destruct (s_queue s); reflexivity.
Qed.
Lemma step_waiting : forall i s l, waiting i s -> timeless l = true ->
  sent_by i (snd (step s l)) = [] /\
  ((exists b, l = Poll i b) /\ ended i (fst (step s l)) \/ (forall b, l <> Poll i b) /\ waiting i (fst (step s l))).
Proof.
  intros i s l (p & next & c & f & w & E & Nx) Tl. pose proof (step_task s l i _ E) as S.
  pose proof (timeless_now s l Tl) as Nw.
  destruct (step s l) as [s' os]. cbn [fst snd] in *.
  destruct S as [(E' & O & NP)|[(-> & q & n & g & c' & m & w' & r & I & E' & O)|(b & -> & _ & _ & E' & O)]].
  - split; [exact O|]. right. split; [exact NP|]. exists p, next, c, f, w. rewrite Nw. auto.
  - injection I as <- <- <- <- <- <- <-. split; [exact O|]. right. split; [discriminate|]. exists p, next, c, f, w. rewrite Nw. auto.
  - cbn [poll] in E', O. destruct (p =? 0) eqn:P0.
    { split; [exact O|]. left. split; [exists b; reflexivity|]. eexists. split; [exact E'|reflexivity]. }
    apply Nat.eqb_neq in P0. set (n := match next with Some n => n | None => s_now s + p end) in *.
    assert (B : n <=? s_now s = false). { apply Nat.leb_gt. unfold n. destruct next; lia. }
    rewrite B in E', O. cbn [andb fst snd] in E', O. split; [exact O|]. left. split; [exists b; reflexivity|]. eexists. split; [exact E'|reflexivity].
Qed.
Lemma run_waiting : forall i ls b ls' s, waiting i s -> forallb timeless ls = true -> sent_by i (snd (run s (ls ++ Poll i b :: ls'))) = [].
Proof.
  intros i. induction ls as [|l ls IH]; intros b ls' s W T; cbn [app run].
  - destruct (step_waiting i s (Poll i b) W eq_refl) as [O [[_ E]|[N _]]]; [|destruct (N b eq_refl)].
    pose proof (run_ended i ls' (fst (step s (Poll i b))) E) as R. destruct (step s (Poll i b)) as [s1 o1]. cbn [fst snd] in *.
    destruct (run s1 ls') as [s2 o2]. cbn [snd] in *. rewrite sent_by_app, O, R. reflexivity.
  - cbn [forallb] in T. apply andb_true_iff in T. destruct T as [Tl T]. destruct (step_waiting i s l W Tl) as [O [[_ E]|[_ W']]].
    + pose proof (run_ended i (ls ++ Poll i b :: ls') (fst (step s l)) E) as R. destruct (step s l) as [s1 o1]. cbn [fst snd] in *.
      destruct (run s1 _) as [s2 o2]. cbn [snd] in *. rewrite sent_by_app, O, R. reflexivity.
    + specialize (IH b ls' (fst (step s l)) W' T). destruct (step s l) as [s1 o1]. cbn [fst snd] in *.
      destruct (run s1 _) as [s2 o2]. cbn [snd] in *. rewrite sent_by_app, O. exact IH.
Qed.

(** An interval cancelled before its task first runs. *)
Definition unborn (i : nat) (s : state M) : Prop :=
  exists p c f w, nth_error (s_tasks s) i = Some (Interval p None true c f w true).
Lemma step_unborn : forall i s l, unborn i s -> sent_by i (snd (step s l)) = [] /\ (unborn i (fst (step s l)) \/ ended i (fst (step s l))).
Proof.
  intros i s l (p & c & f & w & E). pose proof (step_task s l i _ E) as S. destruct (step s l) as [s' os]. cbn [fst snd] in *.
  destruct S as [(E' & O & _)|[(-> & q & n & g & c' & m & w' & r & I & E' & O)|(b & -> & _ & _ & E' & O)]].
  - split; [exact O|]. left. exists p, c, f, w. exact E'.
  - injection I as <- <- <- <- <- <- <-. split; [exact O|]. left. exists p, c, f, w. exact E'.
  - cbn [poll] in E', O. destruct (p =? 0) eqn:P0.
    { split; [exact O|]. right. eexists. split; [exact E'|reflexivity]. }
    apply Nat.eqb_neq in P0. assert (B : s_now s + p <=? s_now s = false) by (apply Nat.leb_gt; lia).
    rewrite B in E', O. cbn [andb fst snd] in E', O. split; [exact O|]. right. eexists. split; [exact E'|reflexivity].
Qed.
Lemma run_unborn : forall i ls s, unborn i s -> sent_by i (snd (run s ls)) = [].
Proof.
  intros i. induction ls as [|l ls IH]; intros s U; [reflexivity|]. cbn [run]. destruct (step_unborn i s l U) as [O [U'|E]].
  - specialize (IH _ U'). destruct (step s l) as [s1 o1]. cbn [fst snd] in *. destruct (run s1 ls) as [s2 o2]. cbn [snd] in *. rewrite sent_by_app, O. exact IH.
  - pose proof (run_ended i ls _ E) as R. destruct (step s l) as [s1 o1]. cbn [fst snd] in *. destruct (run s1 ls) as [s2 o2]. cbn [snd] in *. rewrite sent_by_app, O. exact R.
Qed.

(** *** Timers *)
Section OneTimer.
Variables (i c0 d : nat) (m : M) (w : info).
Definition timer_ok (s : state M) (outs : list (nat * envelope M)) : Prop :=
  c0 <= s_now s /\ exists due r, nth_error (s_tasks s) i = Some (Timer d due m w r) /\
    (r = true -> outs = [] /\ match due with Some x => c0 + d <= x | None => True end) /\
    (outs = [] \/ exists t : nat, outs = [(t, {| e_message := m; e_info := w |})] /\ c0 + d <= t).
Lemma step_timer : forall s l outs, timer_ok s outs -> timer_ok (fst (step s l)) (outs ++ sent_by i (snd (step s l))).
Proof.
  intros s l outs (N & due & r & E & R & H). pose proof (step_now s l) as Mon. pose proof (step_task s l i _ E) as S.
  destruct (step s l) as [s' os] eqn:St. cbn [fst snd] in *. destruct S as [(E' & O & _)|[(-> & q & n' & g' & c' & m' & w' & r' & I & E' & O)|(b & -> & Nw & Op & E' & O)]].
  - rewrite O, app_nil_r. split; [lia|]. exists due, r. auto.
  - discriminate I.
  - destruct r; cbn [poll] in E', O.
    + destruct (R eq_refl) as [-> B]. set (x := match due with Some x => x | None => s_now s + d end) in *.
      assert (Bx : c0 + d <= x) by (unfold x; destruct due; lia).
      destruct (x <=? s_now s) eqn:Q; cbn [fst snd] in E', O; rewrite O; cbn [app].
      * apply Nat.leb_le in Q. split; [lia|]. exists (Some x), false. split; [exact E'|]. split; [discriminate|].
        destruct (s_open s); [right; exists (s_now s); split; [reflexivity|lia]|left; reflexivity].
      * split; [lia|]. exists (Some x), true. split; [exact E'|]. split; [auto|left; reflexivity].
    + cbn [fst snd] in E', O. rewrite O, app_nil_r. split; [lia|]. exists due, false. auto.
Qed.
Lemma run_timer : forall ls s outs, timer_ok s outs -> timer_ok (fst (run s ls)) (outs ++ sent_by i (snd (run s ls))).
Proof.
  induction ls as [|l ls IH]; intros s outs H; cbn [run]. { cbn. rewrite app_nil_r. exact H. }
  pose proof (step_timer s l outs H) as H1. destruct (step s l) as [s1 o1]. cbn [fst snd] in H1. specialize (IH s1 _ H1).
  destruct (run s1 ls) as [s2 o2]. cbn [fst snd] in *. rewrite sent_by_app, app_assoc. exact IH.
Qed.
End OneTimer.
End P.
