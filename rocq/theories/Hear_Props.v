(** C104: which widgets hear a message on its way up. *)
From Coq Require Import String ZArith List Bool Arith Lia.
From Verif Require Import Text_Model Tree_Model Tree_Spec Tree_Proofs Hear_Model Hear_Spec Hear_Proofs.
Import ListNotations.
Notation length := List.length.
Open Scope nat_scope.
Open Scope list_scope.

Definition count (p : list nat) (l : list (list nat)) : nat := count_occ (list_eq_dec Nat.eq_dec) l p.

Section C104.
Variables M St : Type.
Variable own : list nat -> St -> envelope M -> option M * St * envelope M.

(** C104: if nobody interferes, the ancestors inside the screen hear the message, the
    parent first; then the children of the screen, twice over; then the overlays. *)
Theorem C104_quiet : forall root users overlays i rest s e,
  application root users overlays -> follow root (0 :: i :: rest) <> None -> quiet M St own -> e_bubbling e = true ->
  heard M St own root (0 :: i :: rest) s e = inside (0 :: i :: rest) ++ user_paths users ++ user_paths users ++ overlay_paths overlays.
Proof.
  intros root users overlays i rest s e A F Q B. unfold heard.
  destruct (rise_log M St own root users overlays A i rest F s e) as (c1 & c2 & c3 & k1 & k2 & k3 & tl & s1 & e1 & E & _ & _ & _ & _ & _ & _ & _ & X).
  destruct (X Q B) as (X1 & X2 & X3). rewrite E, !map_app, X1, X2, X3. reflexivity.
Qed.

Lemma firstn_count : forall (l : list (list nat)) k p, count p (firstn k l) <= count p l.
Proof.
  intros l k p. rewrite <- (firstn_skipn k l) at 2. unfold count. rewrite count_occ_app. lia.
Qed.
Lemma users_short : forall users p, In p (user_paths users) -> length p = 2.
Proof. intros users p I. apply in_map_iff in I as (i & <- & _). reflexivity. Qed.
Lemma overlays_short : forall ov p, In p (overlay_paths ov) -> length p = 1.
Proof. intros ov p I. apply in_map_iff in I as (i & <- & _). reflexivity. Qed.
Lemma inside_in : forall path p, In p (inside path) -> exists n, n < length path /\ 2 <= n /\ p = firstn n path.
Proof.
  intros path p I. apply filter_In in I as [I L]. apply in_map_iff in I as (n & <- & I). apply in_rev, in_seq in I.
  apply Nat.leb_le in L. rewrite firstn_length in L. exists n. repeat split; lia.
Qed.
Lemma inside_nodup : forall path p, count p (inside path) <= 1.
Proof.
  intros path p. unfold inside, ancestors, count. apply NoDup_count_occ. apply NoDup_filter.
  assert (K : forall l, NoDup l -> (forall d, In d l -> d <= length path) -> NoDup (map (fun n => firstn n path) l)).
  { induction 1 as [|d l N ND IH]; intros H; [constructor|]. cbn [map]. constructor; [|apply IH; intros; apply H; now right].
    intros I. apply in_map_iff in I as (d' & E & I). apply (f_equal (@length nat)) in E. rewrite !firstn_length in E.
    rewrite !Nat.min_l in E by (apply H; [now left] || (apply H; now right)). congruence. }
  apply K; [apply NoDup_rev, seq_NoDup|]. intros d D. apply in_rev, in_seq in D. lia.
Qed.
Lemma count_none : forall p l, (forall q, In q l -> length q <> length p) -> count p l = 0.
Proof. intros p l H. apply count_occ_not_In. intros I. now apply (H p I). Qed.

(** C104: whatever handlers do, a widget further down than the screen's children
    hears the message at most once, and only if it is an ancestor of the sender. *)
Theorem C104_once : forall root users overlays i rest s e p,
  application root users overlays -> follow root (0 :: i :: rest) <> None -> 3 <= length p ->
  count p (heard M St own root (0 :: i :: rest) s e) <= 1 /\
  (In p (heard M St own root (0 :: i :: rest) s e) -> exists n, n < length (0 :: i :: rest) /\ p = firstn n (0 :: i :: rest)).
Proof.
  intros root users overlays i rest s e p A F L. unfold heard.
  destruct (rise_log M St own root users overlays A i rest F s e) as (c1 & c2 & c3 & k1 & k2 & k3 & tl & s1 & e1 & E & X1 & X2 & X3 & T & _).
  rewrite E, !map_app, X1, X2, X3.
  assert (U : forall k q, In q (firstn k (user_paths users)) -> length q <> length p).
  { intros k q I. rewrite (users_short users q); [lia|]. rewrite <- (firstn_skipn k). apply in_or_app. now left. }
  assert (V : forall q, In q tl -> length q <> length p).
  { intros q I. destruct T as [-> | ->]; [destruct I|]. rewrite (overlays_short overlays q I). lia. }
  split.
  - unfold count. rewrite !count_occ_app. fold (count p (firstn k1 (inside (0 :: i :: rest)))) (count p (firstn k2 (user_paths users))) (count p (firstn k3 (user_paths users))) (count p tl).
    rewrite (count_none p (firstn k2 _)), (count_none p (firstn k3 _)), (count_none p tl) by eauto.
    pose proof (firstn_count (inside (0 :: i :: rest)) k1 p). pose proof (inside_nodup (0 :: i :: rest) p). lia.
  - intros I. rewrite !in_app_iff in I. destruct I as [I|[I|[I|I]]]; [|now apply U in I|now apply U in I|now apply V in I].
    destruct (inside_in (0 :: i :: rest) p) as (n & N1 & N2 & N3); [|eauto].
    rewrite <- (firstn_skipn k1). apply in_or_app. now left.
Qed.

(** C104: an ancestor inside the screen that stops the message when it first hears it
    is the last widget to hear it. *)
Theorem C104_stopped : forall root users overlays i rest s e before c after_c,
  application root users overlays -> follow root (0 :: i :: rest) <> None ->
  calls M St own root (0 :: i :: rest) s e = before ++ c :: after_c ->
  In (fst (fst c)) (inside (0 :: i :: rest)) -> ~ In (fst (fst c)) (map (fun c : call M St => fst (fst c)) before) ->
  e_bubbling (snd (after M St own c)) = false -> after_c = [].
Proof.
  intros root users overlays i rest s e before c after_c A F EC IN FR ST.
  destruct (rise_log M St own root users overlays A i rest F s e) as (c1 & c2 & c3 & k1 & k2 & k3 & tl & s1 & e1 & E & X1 & X2 & X3 & T & CH & EN & ZE & _).
  rewrite E in EC.
  assert (NB : forall l, before = c1 ++ l -> False).
  { intros l ->. destruct EN as [EN|EN].
    - apply FR. rewrite <- EN in IN. rewrite map_app. apply in_or_app. now left.
    - destruct (ZE EN) as [-> ->]. apply (f_equal (@length _)) in EC. rewrite !app_length in EC. cbn [length] in EC. lia. }
  assert (K : exists c1', c1 = before ++ c :: c1' /\ after_c = c1' ++ c2 ++ c3).
  { apply app_eq_app in EC as (l & [[E1 E2]|[E1 E2]]); [|destruct (NB l E1)].
    destruct l as [|c' l].
    - destruct (NB []). rewrite app_nil_r in *. now symmetry.
    - injection E2 as -> ->. eauto. }
  destruct K as (c1' & -> & ->).
  assert (Y : c1' = [] /\ e_bubbling e1 = false).
  { clear - CH ST. revert CH. generalize (s, e). induction before as [|b before IH]; intros x CH; cbn [app chained] in CH.
    - destruct CH as (_ & _ & CH). destruct c1' as [|c' c1']; cbn [chained] in CH.
      + rewrite CH in ST. auto.
      + destruct CH as (E & B & _). rewrite <- E in ST. cbn [snd] in ST. congruence.
    - destruct CH as (_ & _ & CH). eapply IH; exact CH. }
  destruct Y as [-> Y]. destruct (ZE Y) as [-> ->]. reflexivity.
Qed.

(** C104: what the application is told about the sender is what the message set out
    with, if handlers leave it alone. *)
Lemma until_keeps : forall (K : envelope M -> Prop), (forall p s e, K e -> K (snd (own p s e))) -> forall l s e, K e -> K (snd (until_changed M St own l s e)).
Proof.
  intros K H. induction l as [|p l IH]; intros s e Ke; [exact Ke|]. cbn [until_changed]. specialize (H p s e Ke).
  destruct (own p s e) as [[o s'] e']. destruct o; [exact H|]. apply IH, H.
Qed.
Lemma all_keeps : forall (K : envelope M -> Prop), (forall p s e, K e -> K (snd (own p s e))) -> forall l h s e, K e -> K (snd (all_of M St own h l s e)).
Proof.
  intros K H. induction l as [|p l IH]; intros h s e Ke; [exact Ke|]. cbn [all_of]. specialize (H p s e Ke).
  destruct (own p s e) as [[o s'] e']. apply IH, H.
Qed.
Theorem C104_sender : forall root path s e,
  (forall p s e, e_sender (snd (own p s e)) = e_sender e /\ e_sender_type (snd (own p s e)) = e_sender_type e) ->
  e_sender (received M St own root path s e) = e_sender e /\ e_sender_type (received M St own root path s e) = e_sender_type e.
Proof.
  intros root path s e H. pose (K := fun e' : envelope M => e_sender e' = e_sender e /\ e_sender_type e' = e_sender_type e).
  assert (HK : forall p s e, K e -> K (snd (own p s e))).
  { intros p s' e' [K1 K2]. destruct (H p s' e') as [H1 H2]. split; congruence. }
  change (K (received M St own root path s e)). unfold received, rise, bubble_message.
  cut (forall n x s, K x -> K (snd (bubble M St (handles M St own root) root path n s x))); [intros X; apply X; split; reflexivity|].
  clear s. induction n as [|n IH]; intros x s Kx; [exact Kx|]. cbn [bubble]. destruct (negb (e_bubbling x)); [exact Kx|].
  unfold handle_at. destruct (follow root (firstn n path)); [|apply IH, Kx].
  assert (HS : K (snd (screen_handles M St own root s x))).
  { unfold screen_handles. destruct (kids_of root); [exact Kx|]. apply until_keeps; assumption. }
  assert (HH : K (snd (handles M St own root (firstn n path) s x))).
  { unfold handles. destruct (firstn n path) as [|[|?] [|? ?]]; try (apply HK, Kx); [|exact HS].
    unfold app_handles. destruct (kids_of root); [exact Kx|]. destruct (screen_handles M St own root s x) as [[o s'] e']. apply all_keeps; assumption. }
  destruct (handles M St own root (firstn n path) s x) as [[o s'] e']. apply IH. destruct o; exact HH.
Qed.

(** C104, refuted: that each ancestor hears a message once, and nobody else.  A child
    of the screen hears it three times if it is an ancestor of the sender, and twice if
    it is not, even if it is the sender itself. *)
Theorem C104_each_once_refuted : forall root users overlays i rest s e j,
  application root users overlays -> follow root (0 :: i :: rest) <> None -> quiet M St own -> e_bubbling e = true -> j < length users ->
  count [0; j] (heard M St own root (0 :: i :: rest) s e) = if (j =? i) && negb (length rest =? 0) then 3 else 2.
Proof.
  intros root users overlays i rest s e j A F Q B L. rewrite (C104_quiet root users overlays i rest s e A F Q B).
  unfold count. rewrite !count_occ_app. fold (count [0; j] (inside (0 :: i :: rest))) (count [0; j] (user_paths users)) (count [0; j] (overlay_paths overlays)).
  rewrite (count_none [0; j] (overlay_paths overlays)) by (intros q I; rewrite (overlays_short overlays q I); discriminate).
  assert (U : count [0; j] (user_paths users) = 1).
  { apply NoDup_count_occ'; [|apply in_map_iff; exists j; split; [reflexivity|apply in_seq; lia]].
    apply FinFun.Injective_map_NoDup; [intros a b E; congruence|apply seq_NoDup]. }
  rewrite U. assert (I : count [0; j] (inside (0 :: i :: rest)) = if (j =? i) && negb (length rest =? 0) then 1 else 0); [|rewrite I; destruct (_ && _); reflexivity].
  destruct (Nat.eqb_spec j i) as [->|N]; cbn [andb].
  - destruct rest as [|r rest]; cbn [length Nat.eqb negb]; [reflexivity|].
    apply Nat.le_antisymm; [apply inside_nodup|]. apply count_occ_In. apply filter_In. split; [|reflexivity].
    apply in_map_iff. exists 2. split; [reflexivity|]. apply in_rev. rewrite rev_involutive. apply in_seq. cbn [length]. lia.
  - apply count_occ_not_In. intros X. apply inside_in in X as (n & N1 & N2 & N3). destruct n as [|[|n]]; [lia|lia|]. cbn [firstn] in N3. congruence.
Qed.
End C104.
Print Assumptions C104_quiet. Print Assumptions C104_once. Print Assumptions C104_stopped. Print Assumptions C104_sender. Print Assumptions C104_each_once_refuted.

(** An application with two widgets on the screen; the first holds another two levels
    down; and a tooltip. *)
Definition wd (t : string) : wdata := WData None (str t) true false false [].
Definition ex_tree : widget :=
  Box (wd "App") [Box (wd "Screen") [Box (wd "Panel") [Box (wd "Row") [Leaf (wd "Button")]]; Leaf (wd "Log")]; Leaf (wd "Tooltip")].
Definition listening (p : list nat) (s : unit) (e : envelope nat) : option nat * unit * envelope nat := (None, s, e).
Example C104_example : application ex_tree [Box (wd "Panel") [Box (wd "Row") [Leaf (wd "Button")]]; Leaf (wd "Log")] [Leaf (wd "Tooltip")] /\
  follow ex_tree [0; 0; 0; 0] <> None /\ quiet nat unit listening /\
  heard nat unit listening ex_tree [0; 0; 0; 0] tt (Envelope 7 None (str "Button") true) = [[0; 0; 0]; [0; 0]; [0; 0]; [0; 1]; [0; 0]; [0; 1]; [1]].
Proof.
  split; [exists (wd "App"), (wd "Screen"); reflexivity|]. split; [discriminate|]. split; [intros p s e; split; reflexivity|]. reflexivity.
Qed.

(** Stopped by the row's ancestor, nobody else hears. *)
Definition firm (p : list nat) (s : unit) (e : envelope nat) : option nat * unit * envelope nat :=
  (None, s, if list_eq_dec Nat.eq_dec p [0; 0] then Envelope (e_msg e) (e_sender e) (e_sender_type e) false else e).
Example C104_stopped_example : heard nat unit firm ex_tree [0; 0; 0; 0] tt (Envelope 7 None (str "Button") true) = [[0; 0; 0]; [0; 0]].
Proof. reflexivity. Qed.
(** C104, refuted: that a stopped message is heard no more.  A child of the screen
    that is no ancestor stops it; the next one still hears it. *)
Theorem C104_stop_refuted :
  let e := Envelope 7 None (str "Log") true in
  follow ex_tree [0; 1] <> None /\
  map (fun c => (fst (fst c), e_bubbling (snd c))) (calls nat unit firm ex_tree [0; 1] tt e) = [([0; 0], true); ([0; 1], false)].
Proof. split; [discriminate|reflexivity]. Qed.
(** C104, refuted: that an answer replaces the message.  Here the panel answers with
    the next number; it is asked three times, and the third answer is lost. *)
Definition counting (p : list nat) (s : unit) (e : envelope nat) : option nat * unit * envelope nat :=
  (if list_eq_dec Nat.eq_dec p [0; 0] then Some (S (e_msg e)) else None, s, e).
Theorem C104_answer_refuted :
  let e := Envelope 0 None (str "Button") true in
  count [0; 0] (heard nat unit counting ex_tree [0; 0; 0; 0] tt e) = 3 /\ e_msg (received nat unit counting ex_tree [0; 0; 0; 0] tt e) = 2.
Proof. split; reflexivity. Qed.
Print Assumptions C104_stop_refuted. Print Assumptions C104_answer_refuted.
