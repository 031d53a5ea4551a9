(** Proofs about the command palette. *)
From Coq Require Import List Arith Bool ZArith Lia Permutation Sorting.Sorted.
From Verif Require Import Text_Model Palette_Model Palette_Spec.
Import ListNotations.
Open Scope nat_scope.
#[local] Arguments visible {P} _.
#[local] Arguments set_visible {P} _ _.
#[local] Arguments query {P} _.
#[local] Arguments set_query {P} _ _.
#[local] Arguments entries {P} _.
#[local] Arguments set_entries {P} _ _.
#[local] Arguments pending {P} _.
#[local] Arguments set_pending {P} _ _.
#[local] Arguments selected {P} _.
#[local] Arguments set_selected {P} _ _.
#[local] Arguments listed {P} _.
#[local] Arguments set_listed {P} _ _.
#[local] Arguments busy {P} _.
#[local] Arguments set_busy {P} _ _.
#[local] Arguments clear_current {P} _.
#[local] Arguments set_clear_current {P} _ _.
#[local] Arguments counter {P} _.
#[local] Arguments set_counter {P} _ _.
#[local] Arguments expected {P} _.
#[local] Arguments set_expected {P} _ _.
#[local] Arguments completed {P} _.
#[local] Arguments set_completed {P} _ _.
#[local] Arguments providers {P} _.
#[local] Arguments set_providers {P} _ _.
#[local] Arguments generation {P} _.
#[local] Arguments set_generation {P} _ _.
#[local] Arguments last_update {P} _.
#[local] Arguments set_last_update {P} _ _.
#[local] Arguments pending_action {P} _.
#[local] Arguments set_pending_action {P} _ _.
#[local] Arguments selected_action {P} _.
#[local] Arguments set_selected_action {P} _ _.
#[local] Arguments events {P} _.
#[local] Arguments set_events {P} _ _.
#[local] Arguments restore_focus {P} _.
#[local] Arguments set_restore_focus {P} _ _.
#[local] Arguments run_on_select {P} _.
#[local] Arguments now {P} _.
#[local] Arguments set_now {P} _ _.
#[local] Arguments tasks {P} _.
#[local] Arguments set_tasks {P} _ _.
#[local] Arguments channel {P} _.
#[local] Arguments set_channel {P} _ _.
#[local] Arguments enqueue {P} _ _.
#[local] Arguments sync {P} _.
#[local] Arguments emit {P} _.
#[local] Arguments normalize {P} _.
#[local] Arguments refresh {P} _.
#[local] Arguments cancel_search {P} _.
#[local] Arguments close_with {P} _ _.
#[local] Arguments begin_search {P} _ _.
#[local] Arguments receive {P} _ _.
#[local] Arguments timed_flush {P} _.
#[local] Arguments finish {P} _.
#[local] Arguments start_search {P} _ _.
#[local] Arguments open_with_focus {P} _ _.
#[local] Arguments set_providers_ {P} _ _.
#[local] Arguments activate {P} _.
#[local] Arguments submit {P} _.
#[local] Arguments move_selection {P} _ _.
#[local] Arguments arrow {P} _ _.
#[local] Arguments flush {P} _.
#[local] Arguments apply_update {P} _ _.
#[local] Arguments apply_all {P} _ _.
#[local] Arguments drain_updates {P} _.
#[local] Arguments palette_new {P} _.
#[local] Arguments Search {P} _ _ _.
#[local] Arguments BusyTimer {P} _.
#[local] Arguments NoMatchesTimer {P} _ _.
#[local] Arguments sends {P} _ _.
#[local] Arguments step {P} _ _ _.
#[local] Arguments run {P} _ _ _.
#[local] Arguments answered {P} _.
#[local] Arguments answers {P} _ _ _.
#[local] Arguments taken {P} _ _ _.

(** *** Sorting *)
Lemma numbered_arrived_from : forall hs n, numbered n hs = map (fun '(h, i) => from_hit h i) (combine hs (seq (S n) (length hs))).
Proof. induction hs as [|h hs IH]; intros n; [reflexivity|]. cbn. f_equal. apply IH. Qed.
Lemma numbered_arrived : forall hs, numbered 0 hs = arrived hs.
Proof. intros hs. rewrite numbered_arrived_from. reflexivity. Qed.
Lemma numbered_app : forall a b n, numbered n (a ++ b) = numbered n a ++ numbered (n + length a) b.
Proof.
  induction a as [|h a IH]; intros b n; cbn; [rewrite Nat.add_0_r; reflexivity|]. rewrite IH. do 3 f_equal. lia.
Qed.
Lemma numbered_length : forall hs n, length (numbered n hs) = length hs.
Proof. induction hs; intros; cbn; congruence. Qed.
Lemma numbered_in : forall hs n e, In e (numbered n hs) -> n < e_seq e /\ exists h, In h hs /\ stands_for h e.
Proof.
  induction hs as [|h hs IH]; intros n e H; [destruct H|]. destruct H as [<-|H].
  - split; [cbn; lia|]. exists h. split; [left; reflexivity|]. repeat split.
  - destruct (IH _ _ H) as [L (h' & I & S)]. split; [lia|]. exists h'. split; [right; exact I|exact S].
Qed.
Lemma numbered_seqs : forall hs n, NoDup (map e_seq (numbered n hs)).
Proof.
  induction hs as [|h hs IH]; intros n; cbn; constructor; auto. intros H. apply in_map_iff in H. destruct H as (e & E & I).
  apply numbered_in in I. lia.
Qed.
Lemma precedes_spec : forall a b, precedes a b = true <-> better a b \/ (e_score a = e_score b /\ e_seq a = e_seq b).
Proof.
  intros a b. unfold precedes, better. rewrite orb_true_iff, andb_true_iff, Z.ltb_lt, Z.eqb_eq, Z.leb_le. split; intros H; lia.
Qed.
Lemma insert_perm : forall x l, Permutation (insert_entry x l) (x :: l).
Proof.
  intros x. induction l as [|y l IH]; cbn; [reflexivity|]. destruct (precedes x y); [reflexivity|].
  rewrite IH. apply perm_swap.
Qed.
Lemma sort_perm : forall l, Permutation (sort_entries l) l.
Proof. induction l as [|x l IH]; cbn; [reflexivity|]. rewrite insert_perm. constructor. exact IH. Qed.
Definition weakly (a b : entry) : Prop := better a b \/ (e_score a = e_score b /\ e_seq a = e_seq b).
Lemma weakly_trans : forall a b c, weakly a b -> weakly b c -> weakly a c.
Proof. unfold weakly, better. intros. lia. Qed.
Lemma sort_sorted : forall l, StronglySorted weakly (sort_entries l).
Proof.
  induction l as [|x l IH]; cbn; [constructor|]. fold (sort_entries l). revert IH. generalize (sort_entries l) as m. clear l.
  induction m as [|y m IHm]; intros S; cbn; [repeat constructor|]. destruct (precedes x y) eqn:Q.
  - constructor; [exact S|]. apply precedes_spec in Q. inversion S as [|? ? S' F]; subst. constructor; [exact Q|].
    eapply Forall_impl; [|exact F]. intros z Hz. eapply weakly_trans; eauto.
  - inversion S as [|? ? S' F]; subst. constructor; [apply IHm; exact S'|]. rewrite insert_perm. constructor; [|exact F].
    assert (N : ~ weakly x y) by (intros W; apply precedes_spec in W; congruence). unfold weakly, better in *. lia.
Qed.
Lemma sorted_strict : forall l, NoDup (map e_seq l) -> StronglySorted weakly l -> StronglySorted better l.
Proof.
  induction 2 as [|x l S IH F]; constructor.
  - apply IH. inversion H; assumption.
  - inversion H as [|? ? N _]; subst. rewrite Forall_forall in *. intros y I. destruct (F y I) as [B|[_ E]]; [exact B|].
    exfalso. apply N. rewrite E. apply in_map. exact I.
Qed.
Lemma NoDup_app_left {A} : forall l m : list A, NoDup (l ++ m) -> NoDup l.
Proof.
  induction l as [|x l IH]; intros m H; [constructor|]. inversion H as [|? ? N D]; subst. constructor; [|eapply IH; eauto].
  intros I. apply N, in_or_app. left. exact I.
Qed.
Lemma sort_of_numbered : forall l a, Permutation l a -> (exists b hs, numbered 0 hs = a ++ b) ->
  Permutation (sort_entries l) a /\ StronglySorted better (sort_entries l).
Proof.
  intros l a H (b & hs & E). split; [rewrite sort_perm; exact H|]. apply sorted_strict; [|apply sort_sorted].
  assert (N : NoDup (map e_seq a)). { pose proof (numbered_seqs hs 0) as N. rewrite E, map_app in N. apply NoDup_app_left in N. exact N. }
  eapply Permutation_NoDup; [|exact N]. apply Permutation_map. symmetry. rewrite sort_perm. exact H.
Qed.
Lemma sort_enabled : forall l (Q : entry -> Prop), Forall Q l -> Forall Q (sort_entries l).
Proof. intros l Q H. rewrite sort_perm. exact H. Qed.
Lemma sort_length : forall l, length (sort_entries l) = length l.
Proof. intros l. apply Permutation_length, sort_perm. Qed.

(** *** Enabled entries *)
Definition enabled (e : entry) : Prop := e_disabled e = false /\ exists a, e_action e = Some a.
Lemma stands_enabled : forall h e, stands_for h e -> enabled e.
Proof. intros h e (_ & A & _ & D). split; [exact D|eauto]. Qed.
Lemma first_enabled_all : forall l i, Forall enabled l -> first_enabled i l = match l with [] => None | _ => Some i end.
Proof. intros l i H. destruct H as [|e l E F]; [reflexivity|]. cbn. rewrite (proj1 E). reflexivity. Qed.
Lemma next_all : forall l i, Forall enabled l -> next_enabled l i = if S i <? length l then Some (S i) else None.
Proof.
  intros l i H. unfold next_enabled. rewrite first_enabled_all.
  - destruct (skipn (S i) l) eqn:E.
    + destruct (Nat.ltb_spec (S i) (length l)) as [Lt|]; [|reflexivity]. apply (f_equal (@length _)) in E. rewrite skipn_length in E. cbn [length] in E. lia.
    + destruct (Nat.ltb_spec (S i) (length l)) as [|Ge]; [reflexivity|]. rewrite skipn_all2 in E by lia. discriminate.
  - rewrite Forall_forall in *. intros x I. apply H. rewrite <- (firstn_skipn (S i) l). apply in_or_app. right. exact I.
Qed.
Lemma prev_all : forall l i, Forall enabled l -> i <= length l -> prev_enabled l i = match i with O => None | S j => Some j end.
Proof.
  intros l [|i] H L; [reflexivity|]. cbn. destruct (nth_error l i) as [e|] eqn:E; [|apply nth_error_None in E; lia].
  rewrite Forall_forall in H. rewrite (proj1 (H e (nth_error_In _ _ E))). reflexivity.
Qed.

Ltac fields := cbn [set_visible set_query set_entries set_pending set_selected set_listed set_busy set_clear_current set_counter set_expected set_completed set_providers set_generation set_last_update set_pending_action set_selected_action set_events set_restore_focus set_now set_tasks set_channel visible query entries pending selected listed busy clear_current counter expected completed providers generation last_update pending_action selected_action events restore_focus run_on_select now tasks channel cancel_search enqueue].
Ltac fields_all := cbn [set_visible set_query set_entries set_pending set_selected set_listed set_busy set_clear_current set_counter set_expected set_completed set_providers set_generation set_last_update set_pending_action set_selected_action set_events set_restore_focus set_now set_tasks set_channel visible query entries pending selected listed busy clear_current counter expected completed providers generation last_update pending_action selected_action events restore_focus run_on_select now tasks channel cancel_search enqueue] in *.

Section Invariant.
Variable P : Type.
Variable ask : P -> text -> list hit.
Notation palette := (palette P).
Implicit Types p : palette.

(** The results of the current generation in a list of updates, the searches for it among the tasks. *)
Definition results (g : nat) (us : list update) : list (list hit) :=
  flat_map (fun u => match u with ProviderResults k hs => if k =? g then [hs] else [] | _ => [] end) us.
Definition searches (g : nat) (ts : list (task P)) : list (P * text) :=
  flat_map (fun t => match t with Search k x q => if k =? g then [(x, q)] else [] | _ => [] end) ts.
Definition gives_up (g : nat) (us : list update) (ts : list (task P)) : Prop :=
  (exists b, In (ShowNoMatches g b) us) \/ (exists b, In (NoMatchesTimer g b) ts).
Definition ugen (u : update) : nat := match u with ProviderResults g _ | ShowBusy g | ShowNoMatches g _ => g end.
Definition tgen (t : task P) : nat := match t with Search g _ _ | BusyTimer g | NoMatchesTimer g _ => g end.

Lemma results_app : forall g a b, results g (a ++ b) = results g a ++ results g b.
Proof. intros. unfold results. apply flat_map_app. Qed.
Lemma searches_app : forall g a b, searches g (a ++ b) = searches g a ++ searches g b.
Proof. intros. unfold searches. apply flat_map_app. Qed.

(** What every reachable palette satisfies, [us] being the updates that wait. *)
Record base (us : list update) (p : palette) : Prop := {
  b_ugen : Forall (fun u => ugen u <= generation p) us;
  b_tgen : Forall (fun t => tgen t <= generation p) (tasks p);
  b_closed : visible p = false -> query p = [];
  b_count : visible p = true -> length (providers p) = completed p + length (results (generation p) us) + length (searches (generation p) (tasks p)) /\
            expected p = length (providers p);
  b_gives_up : (gives_up (generation p) us (tasks p) \/ (In no_matches (entries p) /\ clear_current p = false)) ->
            results (generation p) us = [] /\ searches (generation p) (tasks p) = [] /\ pending p = [];
  b_selected : selected p < length (entries p) \/ (entries p = [] /\ selected p = 0);
  b_entries : Forall enabled (entries p) \/ entries p = [no_matches];
  b_pending : Forall enabled (pending p)
}.

(** What is listed, for a palette that runs a command when it is chosen; [E]: what was listed when the search began. *)
Record search_inv (us : list update) (E : list entry) (p : palette) (done chan task : list P) : Prop := {
  i_none : selected_action p = None;
  i_run : run_on_select p = true;
  i_perm : Permutation (providers p) (done ++ chan ++ task);
  i_chan : results (generation p) us = map (fun x => ask x (trim (query p))) chan;
  i_task : searches (generation p) (tasks p) = map (fun x => (x, trim (query p))) task;
  i_completed : completed p = length done;
  i_expected : expected p = length (providers p);
  i_counter : counter p = length (answers ask (query p) done);
  i_lists : (clear_current p = true /\ pending p = numbered 0 (answers ask (query p) done) /\ entries p = E) \/
            (clear_current p = false /\ exists a, numbered 0 (answers ask (query p) done) = a ++ pending p /\
               Permutation (entries p) a /\ StronglySorted better (entries p)) \/
            (entries p = [no_matches] /\ trim (query p) <> [] /\ pending p = [] /\ answers ask (query p) done = [] /\ chan = [] /\ task = []) ;
  i_done : chan = [] -> task = [] -> pending p = [] /\ (clear_current p = false \/ (providers p = [] /\ E = []));
  i_gives_up : gives_up (generation p) us (tasks p) -> chan = [] /\ task = [] /\ answers ask (query p) done = [] /\ trim (query p) <> []
}.

(** *** The parts of a palette the invariants speak of *)
Lemma sync_same : forall p, sync p = p \/ sync p = set_busy false p.
Proof. intros p. unfold sync. destruct (visible p && listed p); auto. Qed.
Lemma emit_same : forall p, emit p = p \/ exists e, emit p = set_events (events p ++ [e]) p.
Proof.
  intros p. unfold emit. destruct (negb (visible p) || negb (listed p)); [auto|]. destruct (nth_error (entries p) (selected p)) as [e|]; [|auto].
  destruct (e_disabled e); [auto|]. right. eexists. reflexivity.
Qed.
(** What the invariants speak of: all but the selection, what is listed, the busy sign, the events and the clock. *)
Record core := Core { c_visible : bool; c_query : text; c_entries : list entry; c_pending : list entry; c_clear : bool; c_counter : nat; c_expected : nat;
  c_completed : nat; c_providers : list P; c_generation : nat; c_action : option text; c_run : bool; c_tasks : list (task P) }.
Definition view (p : palette) : core :=
  Core (visible p) (query p) (entries p) (pending p) (clear_current p) (counter p) (expected p) (completed p) (providers p) (generation p) (selected_action p) (run_on_select p) (tasks p).
Definition alike (p : palette) (c : core) : Prop :=
  visible p = c_visible c /\ query p = c_query c /\ entries p = c_entries c /\ pending p = c_pending c /\ clear_current p = c_clear c /\
  counter p = c_counter c /\ expected p = c_expected c /\ completed p = c_completed c /\ providers p = c_providers c /\ generation p = c_generation c /\
  selected_action p = c_action c /\ run_on_select p = c_run c /\ tasks p = c_tasks c.
Ltac same := unfold alike, view; fields; cbn [c_visible c_query c_entries c_pending c_clear c_counter c_expected c_completed c_providers c_generation c_action c_run c_tasks];
  repeat match goal with |- _ /\ _ => split end; try reflexivity.
Ltac cores := unfold view in *; cbn [c_visible c_query c_entries c_pending c_clear c_counter c_expected c_completed c_providers c_generation c_action c_run c_tasks] in *.
Lemma alike_refl : forall p, alike p (view p).
Proof. intros p. same. Qed.
Lemma alike_trans : forall p q c, alike p (view q) -> alike q c -> alike p c.
Proof. unfold alike. intros p q c H K. cores. decompose [and] H. decompose [and] K. repeat match goal with |- _ /\ _ => split end; congruence. Qed.
Lemma sync_alike : forall p, alike (sync p) (view p).
Proof. intros p. destruct (sync_same p) as [-> | ->]; same. Qed.
Lemma emit_alike : forall p, alike (emit p) (view p).
Proof. intros p. destruct (emit_same p) as [-> | [e ->]]; same. Qed.
Lemma selected_alike : forall p n, alike (set_selected n p) (view p).
Proof. intros. same. Qed.
Lemma normalize_alike : forall p, alike (normalize p) (view p).
Proof.
  intros p. unfold normalize. destruct (entries p) as [|e l] eqn:E; [same|].
  match goal with |- context [if ?b then _ else _] => set (q := if b then set_selected (length (e :: l) - 1) p else p) end.
  assert (Q : alike q (view p)) by (unfold q; destruct (_ <=? _); same).
  destruct (nth_error (entries q) (selected q)) as [x|]; [|exact Q]. destruct (e_disabled x); [|exact Q].
  destruct (next_enabled (entries q) (selected q)); [eapply alike_trans; [apply selected_alike|exact Q]|].
  destruct (prev_enabled (entries q) (selected q)); [eapply alike_trans; [apply selected_alike|exact Q]|exact Q].
Qed.
Lemma refresh_alike : forall p, alike (refresh p) (Core (visible p) (query p) (sort_entries (entries p)) (pending p) (clear_current p) (counter p) (expected p) (completed p) (providers p) (generation p) (selected_action p) (run_on_select p) (tasks p)).
Proof.
  intros p. unfold refresh. set (p1 := set_entries (sort_entries (entries p)) p).
  match goal with |- alike (if listed ?x then _ else _) _ => set (p2 := x) end.
  assert (H : alike p2 (view p1)).
  { unfold p2. eapply alike_trans; [apply sync_alike|]. destruct (entries p1); [same|].
    eapply alike_trans; [|eapply alike_trans; [apply normalize_alike|apply selected_alike]]. same. }
  destruct (listed p2); [|exact H]. eapply alike_trans; [apply emit_alike|exact H].
Qed.
(** The selection after the list was put in order. *)
Lemma emit_selected : forall p, selected (emit p) = selected p.
Proof. intros p. destruct (emit_same p) as [-> | [e ->]]; reflexivity. Qed.
Lemma sync_selected : forall p, selected (sync p) = selected p.
Proof. intros p. destruct (sync_same p) as [-> | ->]; reflexivity. Qed.
Lemma normalize_in_range : forall p, Forall enabled (entries p) \/ entries p = [no_matches] -> selected p < length (entries p) ->
  selected (normalize p) = selected p.
Proof.
  intros p H L. unfold normalize. destruct (entries p) as [|e l] eqn:E; [cbn in L; lia|].
  destruct (Nat.leb_spec (length (e :: l)) (selected p)) as [G|_]; [lia|]. rewrite E.
  destruct (nth_error (e :: l) (selected p)) as [x|] eqn:N; [|reflexivity]. destruct (e_disabled x) eqn:D; [|reflexivity].
  destruct H as [H|H].
  - rewrite Forall_forall in H. pose proof (H x (nth_error_In _ _ N)) as C. destruct C. congruence.
  - rewrite H in *. cbn in L. assert (S0 : selected p = 0) by lia. rewrite S0. exact S0.
Qed.
Lemma refresh_selected : forall p, Forall enabled (entries p) \/ entries p = [no_matches] ->
  selected (refresh p) = match entries p with [] => 0 | l => Nat.min (selected p) (length l - 1) end.
Proof.
  intros p H. unfold refresh. set (p1 := set_entries (sort_entries (entries p)) p).
  match goal with |- selected (if listed ?x then _ else _) = _ => set (p2 := x) end.
  assert (K : selected p2 = match entries p with [] => 0 | l => Nat.min (selected p) (length l - 1) end).
  { unfold p2. rewrite sync_selected. assert (Lx : length (entries p1) = length (entries p)) by apply sort_length.
    assert (Hx : Forall enabled (entries p1) \/ entries p1 = [no_matches]).
    { destruct H as [H|H]; [left; apply sort_enabled; exact H|right; unfold p1; cbn [set_entries entries]; rewrite H; reflexivity]. }
    destruct (entries p1) as [|e l] eqn:E1.
    - destruct (entries p); [reflexivity|discriminate].
    - cbn [set_listed selected]. assert (Ne : entries p <> []) by (intros Z0; rewrite Z0 in Lx; discriminate).
      rewrite normalize_in_range.
      + cbn [set_selected selected]. change (selected p1) with (selected p). rewrite Lx. destruct (entries p); [congruence|reflexivity].
      + cbn [set_selected entries]. rewrite E1. exact Hx.
      + cbn [set_selected entries selected]. rewrite E1. cbn [length]. lia. }
  destruct (listed p2); [rewrite emit_selected|]; exact K.
Qed.
Lemma refresh_range : forall p, Forall enabled (entries p) \/ entries p = [no_matches] ->
  selected (refresh p) < length (entries (refresh p)) \/ (entries (refresh p) = [] /\ selected (refresh p) = 0).
Proof.
  intros p H. rewrite (refresh_selected p H). assert (E : entries (refresh p) = sort_entries (entries p)) by apply refresh_alike.
  rewrite E, sort_length. destruct (entries p) as [|e l]; [right; split; reflexivity|left; cbn [length]; lia].
Qed.
Lemma sort_entries_kind : forall l, Forall enabled l \/ l = [no_matches] -> Forall enabled (sort_entries l) \/ sort_entries l = [no_matches].
Proof. intros l [H | ->]; [left; apply sort_enabled; exact H|right; reflexivity]. Qed.

(** *** Preservation by what only touches the surface *)
Lemma base_alike : forall us p q, base us p -> alike q (view p) ->
  (selected q < length (entries q) \/ (entries q = [] /\ selected q = 0)) -> base us q.
Proof.
  intros us p q [B1 B2 B3 B4 B5 B6 B7 B8] (A1 & A2 & A3 & A4 & A5 & A6 & A7 & A8 & A9 & A10 & A11 & A12 & A13) S.
  split; rewrite ?A1, ?A2, ?A4, ?A5, ?A7, ?A8, ?A9, ?A10, ?A13; auto; try (rewrite A3; assumption).
Qed.
Lemma inv_alike : forall us E p q d c t, search_inv us E p d c t -> alike q (view p) -> search_inv us E q d c t.
Proof.
  intros us E p q d c t [] (A1 & A2 & A3 & A4 & A5 & A6 & A7 & A8 & A9 & A10 & A11 & A12 & A13).
  split; rewrite ?A1, ?A2, ?A3, ?A4, ?A5, ?A6, ?A7, ?A8, ?A9, ?A10, ?A11, ?A12, ?A13; auto.
Qed.

(** *** Starting a search *)
Lemma results_old : forall g us, Forall (fun u => ugen u <= g) us -> results (S g) us = [].
Proof.
  induction 1 as [|u us H _ IH]; [reflexivity|]. change (results (S g) (u :: us)) with (results (S g) ([u] ++ us)). rewrite results_app, IH, app_nil_r.
  destruct u as [k hs|k|k b]; cbn in *; try reflexivity. destruct (Nat.eqb_spec k (S g)); [lia|reflexivity].
Qed.
Lemma searches_old : forall g ts, Forall (fun t => tgen t <= g) ts -> searches (S g) ts = [].
Proof.
  induction 1 as [|u us H _ IH]; [reflexivity|]. change (searches (S g) (u :: us)) with (searches (S g) ([u] ++ us)). rewrite searches_app, IH, app_nil_r.
  destruct u as [k hs q|k|k b]; cbn in *; try reflexivity. destruct (Nat.eqb_spec k (S g)); [lia|reflexivity].
Qed.
Lemma gives_up_old : forall g us ts, Forall (fun u => ugen u <= g) us -> Forall (fun t => tgen t <= g) ts -> ~ gives_up (S g) us ts.
Proof.
  intros g us ts U T [[b H]|[b H]].
  - rewrite Forall_forall in U. specialize (U _ H). cbn in U. lia.
  - rewrite Forall_forall in T. specialize (T _ H). cbn in T. lia.
Qed.
Lemma searches_map : forall g q ps, searches g (map (fun x => Search g x q) ps) = map (fun x => (x, q)) ps.
Proof. intros g q. induction ps as [|x ps IH]; cbn; [reflexivity|]. rewrite Nat.eqb_refl. cbn. f_equal. exact IH. Qed.
Lemma Forall_le_S {A} : forall (f : A -> nat) l g, Forall (fun u => f u <= g) l -> Forall (fun u => f u <= S g) l.
Proof. intros f l g H. eapply Forall_impl; [|exact H]. cbn. intros. lia. Qed.

Ltac open_alike H := destruct H as (A1 & A2 & A3 & A4 & A5 & A6 & A7 & A8 & A9 & A10 & A11 & A12 & A13); cores.
Ltac open_other H := destruct H as (O1 & O2 & O3 & O4 & O5 & O6 & O7 & O8 & O9 & O10 & O11 & O12 & O13); cores.
Lemma begun_alike : forall q p, alike (begin_search q p)
  (Core (visible p) q (entries p) [] true 0 (length (providers p)) 0 (providers p) (S (generation p)) None (run_on_select p) (tasks p)).
Proof.
  intros q p. unfold begin_search. eapply alike_trans; [apply sync_alike|]. cbn zeta. fields.
  destruct (visible p) eqn:V; same; exact V.
Qed.
Lemma begun_selected : forall q p, selected (begin_search q p) = 0.
Proof. intros q p. unfold begin_search. rewrite sync_selected. cbn zeta. match goal with |- selected (if ?b then _ else _) = _ => destruct b end; reflexivity. Qed.
Definition begun_empty (q : text) (p : palette) : palette := refresh (sync (set_listed false (set_entries [] (begin_search q p)))).
Lemma cleared_alike : forall b c, alike b c -> alike (sync (set_listed false (set_entries [] b))) (Core (c_visible c) (c_query c) [] (c_pending c) (c_clear c) (c_counter c) (c_expected c) (c_completed c) (c_providers c) (c_generation c) (c_action c) (c_run c) (c_tasks c)).
Proof. intros b c A. eapply alike_trans; [apply sync_alike|]. open_alike A. same; assumption. Qed.
Lemma refresh_empty : forall b, entries b = [] -> alike (refresh b) (view b) /\ selected (refresh b) = 0.
Proof.
  intros b E. split.
  - pose proof (refresh_alike b) as O. open_other O. rewrite E in O3. same; try assumption. rewrite E. exact O3.
  - rewrite refresh_selected; rewrite E; [reflexivity|left; constructor].
Qed.
Lemma begun_empty_alike : forall q p, providers p = [] -> alike (begun_empty q p)
  (Core (visible p) q [] [] true 0 0 0 [] (S (generation p)) None (run_on_select p) (tasks p)) /\ selected (begun_empty q p) = 0.
Proof.
  intros q p E. unfold begun_empty. pose proof (begun_alike q p) as B. rewrite E in B.
  apply cleared_alike in B. destruct (refresh_empty _ (proj1 (proj2 (proj2 B)))) as [R S0]. split; [|exact S0].
  eapply alike_trans; [exact R|exact B].
Qed.
Lemma start_search_eq : forall q p, start_search q p =
  if length (providers p) =? 0 then
    if is_nil (trim q) then begun_empty q p else set_tasks (tasks (begun_empty q p) ++ [NoMatchesTimer (S (generation p)) true]) (begun_empty q p)
  else set_tasks (tasks (begin_search q p) ++ BusyTimer (S (generation p)) :: map (fun x => Search (S (generation p)) x (trim q)) (providers p)) (begin_search q p).
Proof.
  intros q p. unfold start_search. cbn zeta. pose proof (begun_alike q p) as B. unfold begun_empty.
  open_alike B. rewrite A2, A7, A9, A10. reflexivity.
Qed.

Lemma tasks_alike : forall b a q e pe cl co ex cm ps g ac ru ts ts', alike b (Core a q e pe cl co ex cm ps g ac ru ts) -> alike (set_tasks ts' b) (Core a q e pe cl co ex cm ps g ac ru ts').
Proof. intros until ts'. intros A. open_alike A. same; assumption. Qed.
Lemma tasks_selected : forall ts (b : palette), selected (set_tasks ts b) = selected b.
Proof. reflexivity. Qed.
Lemma zero_in_range : forall l : list entry, 0 < length l \/ (l = [] /\ 0 = 0).
Proof. intros [|]; cbn; [right; auto|left; lia]. Qed.

(** The palette after a search began, in the two cases. *)
Lemma start_empty : forall q p, providers p = [] ->
  alike (start_search q p) (Core (visible p) q [] [] true 0 0 0 [] (S (generation p)) None (run_on_select p)
    (if is_nil (trim q) then tasks p else tasks p ++ [NoMatchesTimer (S (generation p)) true])) /\ selected (start_search q p) = 0.
Proof.
  intros q p E. destruct (begun_empty_alike q p E) as [A S0]. rewrite start_search_eq, E. cbn [length Nat.eqb].
  destruct (is_nil (trim q)); [auto|]. rewrite tasks_selected. split; [|exact S0]. rewrite (proj2 (proj2 (proj2 (proj2 (proj2 (proj2 (proj2 (proj2 (proj2 (proj2 (proj2 (proj2 A)))))))))))). exact (tasks_alike _ _ _ _ _ _ _ _ _ _ _ _ _ _ _ A).
Qed.
Lemma start_some : forall q p, providers p <> [] ->
  alike (start_search q p) (Core (visible p) q (entries p) [] true 0 (length (providers p)) 0 (providers p) (S (generation p)) None (run_on_select p)
    (tasks p ++ BusyTimer (S (generation p)) :: map (fun x => Search (S (generation p)) x (trim q)) (providers p))) /\ selected (start_search q p) = 0.
Proof.
  intros q p E. rewrite start_search_eq. destruct (Nat.eqb_spec (length (providers p)) 0) as [Z0|_]; [apply length_zero_iff_nil in Z0; congruence|].
  rewrite tasks_selected. split; [|apply begun_selected]. pose proof (begun_alike q p) as A. rewrite (proj2 (proj2 (proj2 (proj2 (proj2 (proj2 (proj2 (proj2 (proj2 (proj2 (proj2 (proj2 A)))))))))))). exact (tasks_alike _ _ _ _ _ _ _ _ _ _ _ _ _ _ _ A).
Qed.

(** What a new search relies on. *)
Definition ready (us : list update) (p : palette) : Prop :=
  Forall (fun u => ugen u <= generation p) us /\ Forall (fun t => tgen t <= generation p) (tasks p) /\ (Forall enabled (entries p) \/ entries p = [no_matches]).
Lemma base_ready : forall us p, base us p -> ready us p.
Proof. intros us p B. repeat split; apply B. Qed.
Lemma start_base : forall us q p, ready us p -> visible p = true -> base us (start_search q p).
Proof.
  intros us q p (B1 & B2 & B3) V.
  assert (Us : Forall (fun u => ugen u <= S (generation p)) us) by (apply Forall_le_S; assumption).
  assert (Ts : Forall (fun t => tgen t <= S (generation p)) (tasks p)) by (apply Forall_le_S; assumption).
  assert (Rs : results (S (generation p)) us = []) by (apply results_old; assumption).
  assert (Ss : searches (S (generation p)) (tasks p) = []) by (apply searches_old; assumption).
  assert (G : ~ gives_up (S (generation p)) us (tasks p)) by (apply gives_up_old; assumption).
  destruct (providers p) as [|x ps] eqn:Ep.
  - destruct (start_empty q p Ep) as [A S0]. open_alike A.
    split; rewrite ?A1, ?A2, ?A3, ?A4, ?A5, ?A7, ?A8, ?A9, ?A10, ?A13, ?S0, ?Rs; cbn; auto; try congruence.
    + destruct (is_nil (trim q)); [exact Ts|]. apply Forall_app. split; [exact Ts|repeat constructor].
    + intros _. split; [|reflexivity]. destruct (is_nil (trim q)); rewrite ?searches_app, ?Ss; reflexivity.
    + intros _. repeat split. destruct (is_nil (trim q)); rewrite ?searches_app, ?Ss; reflexivity.
  - destruct (start_some q p) as [A S0]; [congruence|]. open_alike A. rewrite Ep in *.
    assert (Ks : searches (S (generation p)) (BusyTimer (S (generation p)) :: map (fun x0 => Search (S (generation p)) x0 (trim q)) (x :: ps)) = map (fun y => (y, trim q)) (x :: ps)).
    { change (BusyTimer (S (generation p)) :: ?l) with ([BusyTimer (S (generation p))] ++ l). rewrite searches_app, searches_map. reflexivity. }
    split; rewrite ?A1, ?A2, ?A3, ?A4, ?A5, ?A7, ?A8, ?A9, ?A10, ?A13, ?S0, ?Rs, ?searches_app, ?Ss, ?Ks; auto; try congruence.
    + apply Forall_app. split; [exact Ts|]. constructor; [cbn; lia|]. apply Forall_forall. intros t I. apply in_map_iff in I. destruct I as (y & <- & _). cbn. lia.
    + intros _. rewrite app_length, map_length. cbn. split; lia.
    + intros [[H|[b H]]|[_ H]]; [exfalso; apply G; left; exact H| |discriminate]. apply in_app_or in H. destruct H as [H|[H|H]]; [exfalso; apply G; right; eexists; exact H|discriminate|].
      apply in_map_iff in H. destruct H as (y & H & _). discriminate.
    + apply zero_in_range.
Qed.
Lemma start_inv : forall us q p, ready us p -> run_on_select p = true ->
  search_inv us (match providers p with [] => [] | _ => entries p end) (start_search q p) [] [] (providers p).
Proof.
  intros us q p (B1 & B2 & B3) R.
  assert (Rs : results (S (generation p)) us = []) by (apply results_old; assumption).
  assert (Ss : searches (S (generation p)) (tasks p) = []) by (apply searches_old; assumption).
  assert (G : ~ gives_up (S (generation p)) us (tasks p)) by (apply gives_up_old; assumption).
  destruct (providers p) as [|x ps] eqn:Ep.
  - destruct (start_empty q p Ep) as [A S0]. open_alike A.
    split; rewrite ?A1, ?A2, ?A3, ?A4, ?A5, ?A6, ?A7, ?A8, ?A9, ?A10, ?A11, ?A12, ?A13, ?S0, ?Rs; cbn; auto.
    + destruct (is_nil (trim q)); rewrite ?searches_app, ?Ss; reflexivity.
    + intros H. repeat split; auto. intros C. rewrite C in H. contradiction (G H).
  - destruct (start_some q p) as [A S0]; [congruence|]. open_alike A. rewrite Ep in *.
    assert (Ks : searches (S (generation p)) (BusyTimer (S (generation p)) :: map (fun x0 => Search (S (generation p)) x0 (trim q)) (x :: ps)) = map (fun y => (y, trim q)) (x :: ps)).
    { change (BusyTimer (S (generation p)) :: ?l) with ([BusyTimer (S (generation p))] ++ l). rewrite searches_app, searches_map. reflexivity. }
    split; rewrite ?A1, ?A2, ?A3, ?A4, ?A5, ?A6, ?A7, ?A8, ?A9, ?A10, ?A11, ?A12, ?A13, ?searches_app, ?Rs, ?Ss, ?Ks; auto; try congruence.
    intros [H|[b H]]; [exfalso; apply G; left; exact H|]. apply in_app_or in H. destruct H as [H|[H|H]]; [exfalso; apply G; right; eexists; exact H|discriminate|].
    apply in_map_iff in H. destruct H as (y & H & _). discriminate.
Qed.

(** *** Flushing and applying updates *)
Definition in_range (p : palette) : Prop := selected p < length (entries p) \/ (entries p = [] /\ selected p = 0).
Lemma flush_nil : forall p, pending p = [] -> flush p = p.
Proof. intros p H. unfold flush. rewrite H. reflexivity. Qed.
Definition gathered (p : palette) : list entry := (if clear_current p then [] else entries p) ++ pending p.
(** Everything receive so far is listed. *)
Definition listed_all (c : core) : core :=
  Core (c_visible c) (c_query c) (match c_pending c with [] => if c_clear c then [] else c_entries c | _ => sort_entries ((if c_clear c then [] else c_entries c) ++ c_pending c) end)
    [] false (c_counter c) (c_expected c) (c_completed c) (c_providers c) (c_generation c) (c_action c) (c_run c) (c_tasks c).
Lemma listed_all_alike : forall p c d, alike p c -> alike p (listed_all d) -> alike p (listed_all c).
Proof.
  intros p c d A O. unfold listed_all in *. open_alike A. open_other O. unfold alike. cores.
  assert (Pe : c_pending c = []) by congruence. assert (Cl : c_clear c = false) by congruence. rewrite Pe, Cl.
  repeat match goal with |- _ /\ _ => split end; congruence.
Qed.
Definition unlisted (p : palette) : palette := if clear_current p then set_clear_current false (set_entries [] p) else p.
Lemma unlisted_alike : forall p, alike (unlisted p) (Core (visible p) (query p) (if clear_current p then [] else entries p) (pending p) false (counter p) (expected p) (completed p) (providers p) (generation p) (selected_action p) (run_on_select p) (tasks p)).
Proof. intros p. unfold unlisted. destruct (clear_current p) eqn:C; same; assumption. Qed.
Lemma append_alike : forall p c, alike p c -> alike (set_pending [] (set_entries (entries p ++ pending p) p))
  (Core (c_visible c) (c_query c) (c_entries c ++ c_pending c) [] (c_clear c) (c_counter c) (c_expected c) (c_completed c) (c_providers c) (c_generation c) (c_action c) (c_run c) (c_tasks c)).
Proof. intros p c A. open_alike A. same; try assumption. rewrite A3, A4. reflexivity. Qed.
Lemma refresh_core : forall p c, alike p c -> alike (refresh p)
  (Core (c_visible c) (c_query c) (sort_entries (c_entries c)) (c_pending c) (c_clear c) (c_counter c) (c_expected c) (c_completed c) (c_providers c) (c_generation c) (c_action c) (c_run c) (c_tasks c)).
Proof.
  intros p c A. pose proof (refresh_alike p) as O. open_alike A. open_other O. rewrite A3 in O3. unfold alike. cores.
  repeat match goal with |- _ /\ _ => split end; congruence.
Qed.
Lemma flush_some : forall p, pending p <> [] -> Forall enabled (gathered p) -> alike (flush p) (listed_all (view p)) /\ in_range (flush p).
Proof.
  intros p H F. assert (Eq : flush p = refresh (set_pending [] (set_entries (entries (unlisted p) ++ pending (unlisted p)) (unlisted p)))).
  { unfold flush, unlisted. destruct (pending p); [congruence|]. reflexivity. }
  pose proof (append_alike _ _ (unlisted_alike p)) as A. cores.
  set (X := set_pending [] (set_entries (entries (unlisted p) ++ pending (unlisted p)) (unlisted p))) in *. rewrite Eq. clearbody X. clear Eq.
  fold (gathered p) in A. assert (Ex : entries X = gathered p) by (open_alike A; exact A3).
  split.
  - apply refresh_core in A. unfold listed_all, view. cbn [c_visible c_query c_entries c_pending c_clear c_counter c_expected c_completed c_providers c_generation c_action c_run c_tasks] in *.
    destruct (pending p) eqn:Ep; [congruence|]. unfold gathered in A. rewrite Ep in A. exact A.
  - apply refresh_range. rewrite Ex. left. exact F.
Qed.
Definition received_core (hs : list hit) (p : palette) : core :=
  Core (visible p) (query p) (entries p) (pending p ++ numbered (counter p) hs) (clear_current p) (counter p + length hs) (expected p) (S (completed p)) (providers p) (generation p) (selected_action p) (run_on_select p) (tasks p).
Lemma received_alike : forall hs p, alike (receive hs p) (received_core hs p).
Proof. intros hs p. unfold receive, received_core. same. Qed.
Lemma apply_results_eq : forall p hs, fst (apply_update (ProviderResults (generation p) hs) p) =
  let p2 := timed_flush (receive hs p) in
  if expected p2 <=? completed p2 then
    let p4 := finish (set_busy false p2) in
    if is_nil (entries p4) && negb (is_nil (trim (query p4))) then set_tasks (tasks p4 ++ [NoMatchesTimer (generation p) true]) p4 else p4
  else p2.
Proof.
  intros p hs. unfold apply_update. rewrite Nat.eqb_refl. cbn [negb]. cbn zeta.
  destruct (expected (timed_flush (receive hs p)) <=? completed (timed_flush (receive hs p))); reflexivity.
Qed.
Lemma last_alike : forall n p c, alike p c -> alike (set_last_update n p) c.
Proof. intros n p c A. open_alike A. unfold alike. fields. repeat match goal with |- _ /\ _ => split end; assumption. Qed.
Lemma busy_alike : forall n p c, alike p c -> alike (set_busy n p) c.
Proof. intros n p c A. open_alike A. unfold alike. fields. repeat match goal with |- _ /\ _ => split end; assumption. Qed.
Lemma last_range : forall n p, in_range p -> in_range (set_last_update n p).
Proof. intros n p R. exact R. Qed.
Lemma busy_range : forall n p, in_range p -> in_range (set_busy n p).
Proof. intros n p R. exact R. Qed.
Lemma timed_spec : forall p, Forall enabled (gathered p) -> in_range p ->
  in_range (timed_flush p) /\ (alike (timed_flush p) (view p) \/ (pending p <> [] /\ alike (timed_flush p) (listed_all (view p)))).
Proof.
  intros p F R. unfold timed_flush. destruct (250 <? now p - last_update p); [|split; [exact R|left; apply alike_refl]].
  destruct (pending p) as [|e l] eqn:Ep.
  - rewrite (flush_nil p Ep). split; [exact R|left; same].
  - destruct (flush_some p) as [A S]; [congruence|exact F|]. split; [apply last_range; exact S|]. right. split; [discriminate|]. apply last_alike. exact A.
Qed.
Lemma finished_spec : forall p, Forall enabled (gathered p) -> in_range p -> in_range (finish p) /\ alike (finish p) (listed_all (view p)).
Proof.
  intros p F R. unfold finish. destruct (pending p) as [|e l] eqn:Ep.
  - cbn [is_nil]. destruct (clear_current p) eqn:C; cbn [andb].
    + rewrite flush_nil by exact Ep. split; [apply refresh_range; left; constructor|]. unfold listed_all. cores. rewrite Ep, C.
      assert (A : alike (set_clear_current false (set_entries [] p)) (Core (visible p) (query p) [] [] false (counter p) (expected p) (completed p) (providers p) (generation p) (selected_action p) (run_on_select p) (tasks p))) by (same; exact Ep).
      apply refresh_core in A. exact A.
    + rewrite flush_nil by exact Ep. split; [exact R|]. unfold listed_all. cores. rewrite Ep, C. same; assumption.
  - cbn [is_nil]. rewrite andb_false_r. destruct (flush_some p) as [A S]; [congruence|exact F|]. split; [exact S|exact A].
Qed.
Lemma alike_view : forall p c, alike p c -> view p = c.
Proof. intros p [] A. open_alike A. unfold view. rewrite A1, A2, A3, A4, A5, A6, A7, A8, A9, A10, A11, A12, A13. reflexivity. Qed.
Lemma gathered_enabled : forall p, Forall enabled (pending p) -> (clear_current p = true \/ Forall enabled (entries p)) -> Forall enabled (gathered p).
Proof. intros p Fp Fe. unfold gathered. apply Forall_app. split; [|exact Fp]. destruct (clear_current p); [constructor|]. destruct Fe as [Fe|Fe]; [discriminate|exact Fe]. Qed.

(** What the answer of a provider to the current search does. *)
Lemma apply_results : forall p hs, Forall enabled (pending p) -> (clear_current p = true \/ Forall enabled (entries p)) -> in_range p ->
  let r := fst (apply_update (ProviderResults (generation p) hs) p) in
  in_range r /\
  ((S (completed p) < expected p /\ alike r (received_core hs p)) \/
   (S (completed p) < expected p /\ c_pending (received_core hs p) <> [] /\ alike r (listed_all (received_core hs p))) \/
   (expected p <= S (completed p) /\
    (alike r (listed_all (received_core hs p)) \/
     (exists m, alike m (listed_all (received_core hs p)) /\ r = set_tasks (tasks p ++ [NoMatchesTimer (generation p) true]) m /\
      entries m = [] /\ trim (query p) <> [])))).
Proof.
  intros p hs Fp Fe Rg r. unfold r. rewrite apply_results_eq. cbn zeta. pose proof (received_alike hs p) as Ra.
  assert (Fg : Forall enabled (gathered (receive hs p))).
  { apply gathered_enabled.
    - open_alike Ra. rewrite A4. apply Forall_app. split; [exact Fp|]. apply Forall_forall. intros e I. apply numbered_in in I. destruct I as (_ & h & _ & S). exact (stands_enabled _ _ S).
    - open_alike Ra. rewrite A5, A3. exact Fe. }
  assert (Rr : in_range (receive hs p)) by exact Rg. clear r.
  generalize dependent (receive hs p). intros p1 Ra Fg Rr.
  destruct (timed_spec p1 Fg Rr) as [R2 K]. apply alike_view in Ra. rewrite Ra in K.
  assert (Pp : pending p1 = pending p ++ numbered (counter p) hs) by (change (c_pending (view p1) = pending p ++ numbered (counter p) hs); rewrite Ra; reflexivity).
  assert (G1 : gathered p1 = (if clear_current p then [] else entries p) ++ (pending p ++ numbered (counter p) hs)).
  { change (gathered p1) with ((if c_clear (view p1) then [] else c_entries (view p1)) ++ c_pending (view p1)). rewrite Ra. reflexivity. }
  generalize dependent (timed_flush p1). intros p2 R2 K.
  assert (Ex : expected p2 = expected p /\ completed p2 = S (completed p)).
  { destruct K as [A|[_ A]]; destruct A as (_ & _ & _ & _ & _ & _ & -> & -> & _); split; reflexivity. }
  destruct Ex as [-> ->].
  destruct (Nat.leb_spec (expected p) (S (completed p))) as [Le|Gt].
  - assert (F2 : Forall enabled (gathered (set_busy false p2))).
    { destruct K as [A|[Np A]]; apply alike_view in A; change (gathered (set_busy false p2)) with ((if c_clear (view p2) then [] else c_entries (view p2)) ++ c_pending (view p2)); rewrite A.
      - unfold received_core. cores. rewrite <- G1. exact Fg.
      - unfold listed_all, received_core. cores. rewrite app_nil_r. rewrite <- Pp. rewrite <- Pp, Pp in G1. rewrite Pp. rewrite <- G1. 
        destruct (pending p ++ numbered (counter p) hs) eqn:N; [congruence|]. apply sort_enabled. exact Fg. }
    destruct (finished_spec (set_busy false p2) F2) as [R4 A4]; [apply busy_range; exact R2|].
    change (view (set_busy false p2)) with (view p2) in A4.
    assert (L : alike (finish (set_busy false p2)) (listed_all (received_core hs p))).
    { destruct K as [A|[Np A]]; apply alike_view in A; rewrite A in A4; [exact A4|]. unfold listed_all in A4 at 1. exact A4. }
    generalize dependent (finish (set_busy false p2)). intros p4 R4 _ A.
    assert (Qe : query p4 = query p) by (destruct A as (_ & -> & _); reflexivity).
    assert (Te : tasks p4 = tasks p) by (destruct A as (_ & _ & _ & _ & _ & _ & _ & _ & _ & _ & _ & _ & ->); reflexivity).
    rewrite Qe, Te.
    destruct (is_nil (entries p4) && negb (is_nil (trim (query p)))) eqn:C.
    + split; [exact R4|]. right. right. split; [exact Le|]. right. apply andb_true_iff in C. destruct C as [C1 C2]. exists p4. split; [exact A|]. split; [reflexivity|]. split.
      * destruct (entries p4); [reflexivity|discriminate].
      * intros Z0. rewrite Z0 in C2. discriminate.
    + split; [exact R4|]. right. right. split; [exact Le|]. left. exact A.
  - split; [exact R2|]. destruct K as [A|[Np A]]; [left; auto|right; left]. split; [exact Gt|]. split; [|exact A]. unfold received_core. cores. rewrite <- Pp. exact Np.
Qed.

Lemma results_cons : forall g u us, results g (u :: us) = results g [u] ++ results g us.
Proof. intros g u us. change (u :: us) with ([u] ++ us). apply results_app. Qed.
Lemma base_drop : forall u us p, results (generation p) [u] = [] -> base (u :: us) p -> base us p.
Proof.
  intros u us p R [B1 B2 B3 B4 B5 B6 B7 B8]. rewrite results_cons, R in B4. rewrite results_cons, R in B5. cbn [app] in *.
  split; auto. { inversion B1; assumption. }
  intros H. apply B5. destruct H as [[[b H]|H]|H]; [left; left; exists b; right; exact H|left; right; exact H|right; exact H].
Qed.
Lemma no_matches_disabled : ~ enabled no_matches.
Proof. intros [H _]. discriminate. Qed.
Lemma base_busy : forall us n p, base us p -> base us (set_busy n p).
Proof. intros us n p B. eapply base_alike; [exact B|same|apply B]. Qed.
Lemma not_given_up : forall us p hs, base (ProviderResults (generation p) hs :: us) p ->
  ~ gives_up (generation p) us (tasks p) /\ (clear_current p = true \/ Forall enabled (entries p)).
Proof.
  intros us p hs [B1 B2 B3 B4 B5 B6 B7 B8]. rewrite results_cons in B5. cbn [results flat_map] in B5. rewrite Nat.eqb_refl in B5. cbn [app] in *. split.
  - intros G. destruct B5 as [C _]; [|discriminate]. left. destruct G as [[b G]|G]; [left; exists b; right; exact G|right; exact G].
  - destruct (clear_current p) eqn:C; [auto|]. destruct B7 as [B7|B7]; [auto|]. exfalso. destruct B5 as [C' _]; [|discriminate]. right. split; [rewrite B7; left; reflexivity|reflexivity].
Qed.
Lemma sorted_no_matches : forall l, Forall enabled l -> ~ In no_matches (sort_entries l).
Proof. intros l F I. apply (Permutation_in _ (sort_perm l)) in I. rewrite Forall_forall in F. exact (no_matches_disabled (F _ I)). Qed.
Lemma enabled_no_matches : forall l, Forall enabled l -> ~ In no_matches l.
Proof. intros l F I. rewrite Forall_forall in F. exact (no_matches_disabled (F _ I)). Qed.
Lemma numbered_enabled : forall n hs, Forall enabled (numbered n hs).
Proof. intros n hs. apply Forall_forall. intros e I. apply numbered_in in I. destruct I as (_ & h & _ & S). exact (stands_enabled _ _ S). Qed.
Lemma listed_all_enabled : forall c, (c_clear c = true \/ Forall enabled (c_entries c)) -> Forall enabled (c_pending c) -> Forall enabled (c_entries (listed_all c)).
Proof.
  intros c E Pe. unfold listed_all. cores. destruct (c_pending c) as [|x l] eqn:Q.
  - destruct (c_clear c); [constructor|destruct E; [discriminate|assumption]].
  - apply sort_enabled, Forall_app. split; [destruct (c_clear c); [constructor|destruct E; [discriminate|assumption]]|exact Pe].
Qed.

Lemma apply_base : forall u us p, base (u :: us) p -> base us (fst (apply_update u p)).
Proof.
  intros u us p B. destruct u as [g hs|g|g ne].
  - destruct (Nat.eqb_spec g (generation p)) as [-> |N].
    2:{ unfold apply_update. rewrite (proj2 (Nat.eqb_neq _ _) N). cbn [negb fst]. eapply base_drop; [|exact B]. cbn. rewrite (proj2 (Nat.eqb_neq _ _) N). reflexivity. }
    destruct (not_given_up _ _ _ B) as [G Fe]. destruct (apply_results p hs (b_pending _ _ B) Fe (b_selected _ _ B)) as [R K].
    generalize dependent (fst (apply_update (ProviderResults (generation p) hs) p)). intros r R K.
    destruct B as [B1 B2 B3 B4 B5 B6 B7 B8]. rewrite results_cons in B4. rewrite results_cons in B5. cbn [results flat_map] in B4, B5. rewrite Nat.eqb_refl in B4, B5. cbn [app length] in *.
    fold (results (generation p) us) in *. inversion B1 as [|? ? _ B1']; subst.
    assert (Fn : Forall enabled (pending p ++ numbered (counter p) hs)) by (apply Forall_app; split; [exact B8|apply numbered_enabled]).
    assert (Fl : Forall enabled (c_entries (listed_all (received_core hs p)))) by (apply listed_all_enabled; assumption).
    destruct K as [(L & A)|[(L & Np & A)|(L & [A|(m & A & -> & Em & Q)])]].
    + open_alike A. unfold listed_all, received_core in *. cores. unfold in_range in R. rewrite A3 in R. split; rewrite ?A1, ?A2, ?A4, ?A5, ?A7, ?A8, ?A9, ?A10, ?A13; try (rewrite A3); auto.
      * intros V. specialize (B4 V). lia.
      * intros [C|C]; [contradiction (G C)|]. exfalso. destruct B5 as [C' _]; [right; exact C|discriminate].
    + open_alike A. unfold listed_all, received_core in *. cores. unfold in_range in R. rewrite A3 in R. split; rewrite ?A1, ?A2, ?A4, ?A5, ?A7, ?A8, ?A9, ?A10, ?A13; try (rewrite A3); auto.
      * intros V. specialize (B4 V). lia.
      * intros [C|[C _]]; [contradiction (G C)|]. contradiction (enabled_no_matches _ Fl C).
    + open_alike A. unfold listed_all, received_core in *. cores. unfold in_range in R. rewrite A3 in R. split; rewrite ?A1, ?A2, ?A4, ?A5, ?A7, ?A8, ?A9, ?A10, ?A13; try (rewrite A3); auto.
      * intros V. specialize (B4 V). lia.
      * intros [C|[C _]]; [contradiction (G C)|]. contradiction (enabled_no_matches _ Fl C).
    + assert (V : visible p = true). { destruct (visible p) eqn:V; [reflexivity|]. rewrite (B3 eq_refl) in Q. contradiction Q. reflexivity. }
      specialize (B4 V). open_alike A. unfold listed_all, received_core in *. cores.
      assert (Z0 : results (generation p) us = [] /\ searches (generation p) (tasks p) = []).
      { split; apply length_zero_iff_nil; lia. }
      split; fields; rewrite ?A1, ?A2, ?A4, ?A5, ?A7, ?A8, ?A9, ?A10; try (rewrite A3); auto.
      * apply Forall_app. split; [exact B2|repeat constructor].
      * intros _. rewrite searches_app. cbn [searches flat_map app]. rewrite app_nil_r. lia.
      * intros _. rewrite searches_app. cbn [searches flat_map app]. rewrite app_nil_r. tauto.
      * rewrite <- A3. exact R.
  - assert (D : base us p) by (eapply base_drop; [|exact B]; reflexivity). unfold apply_update. destruct (negb (g =? generation p)); cbn [fst]; [exact D|].
    destruct (listed p); [apply base_busy|]; exact D.
  - assert (D : base us p) by (eapply base_drop; [|exact B]; reflexivity). unfold apply_update. destruct (Nat.eqb_spec g (generation p)) as [-> |N]; cbn [negb fst]; [|exact D].
    destruct ne.
    + cbn [fst]. set (q := set_listed true (set_selected 0 (set_entries [no_matches] p))).
      assert (Bq : base us q).
      { destruct B as [B1 B2 B3 B4 B5 B6 B7 B8], D as [D1 D2 D3 D4 D5 D6 D7 D8]. unfold q. split; fields; auto.
        intros _. rewrite results_cons in B5. destruct B5 as (H1 & H2 & H3); [left; left; exists true; left; reflexivity|]. auto. }
      eapply base_alike; [exact Bq|apply sync_alike|]. rewrite sync_selected. destruct (sync_alike q) as (_ & _ & -> & _). apply Bq.
    + cbn [fst]. set (q := set_listed false p). assert (Bq : base us q) by (eapply base_alike; [exact D|unfold q; same|apply D]).
      eapply base_alike; [exact Bq|apply sync_alike|]. rewrite sync_selected. destruct (sync_alike q) as (_ & _ & -> & _). apply Bq.
Qed.

(** *** The list while a search runs *)
Lemma searches_nil_or : forall g ts b, searches g (ts ++ [NoMatchesTimer g b]) = searches g ts.
Proof. intros. rewrite searches_app. cbn. apply app_nil_r. Qed.
Lemma answers_app : forall q a b, answers ask q (a ++ b) = answers ask q a ++ answers ask q b.
Proof. intros. unfold answers. apply flat_map_app. Qed.
Lemma prefix_of_numbered : forall hs a b, numbered 0 hs = a ++ b -> exists b hs, numbered 0 hs = a ++ b.
Proof. intros hs a b H. exists b, hs. exact H. Qed.

Lemma inv_drop : forall u us E p d c t, results (generation p) [u] = [] -> search_inv (u :: us) E p d c t -> search_inv us E p d c t.
Proof.
  intros u us E p d c t R []. rewrite results_cons, R in i_chan0. split; auto.
  intros H. apply i_gives_up0. destruct H as [[b H]|H]; [left; exists b; right; exact H|right; exact H].
Qed.
(** What the lists say of the answers received so far: [all]. *)
Definition lists_ok (E : list entry) (all : list hit) (c : core) : Prop :=
  (c_clear c = true /\ c_pending c = numbered 0 all /\ c_entries c = E) \/
  (c_clear c = false /\ exists a, numbered 0 all = a ++ c_pending c /\ Permutation (c_entries c) a /\ StronglySorted better (c_entries c)).
Lemma receive_ok : forall E all hs p, lists_ok E all (view p) -> counter p = length all -> lists_ok E (all ++ hs) (received_core hs p).
Proof.
  intros E all hs p [(C & Pn & Q)|(C & a & Pn & Q)] L; unfold received_core; cores.
  - left. cores. rewrite numbered_app, <- L, Pn. auto.
  - right. cores. split; [exact C|]. exists a. rewrite numbered_app, <- L, Pn, app_assoc. auto.
Qed.
Lemma listed_all_ok : forall E all c, lists_ok E all c -> lists_ok E all (listed_all c).
Proof.
  intros E all c [(C & Pn & Q)|(C & a & Pn & Q & S)]; right; unfold listed_all; cores; (split; [reflexivity|]).
  - exists (numbered 0 all). rewrite app_nil_r. split; [reflexivity|]. rewrite C, Pn. destruct (numbered 0 all) as [|x l] eqn:N; [split; constructor|].
    rewrite <- N. cbn [app]. apply sort_of_numbered; [reflexivity|]. exists [], all. rewrite app_nil_r. reflexivity.
  - exists (a ++ c_pending c). rewrite app_nil_r. split; [exact Pn|]. rewrite C. destruct (c_pending c) as [|x l] eqn:N; [rewrite app_nil_r; auto|].
    rewrite <- N in *. apply sort_of_numbered; [apply Permutation_app_tail; exact Q|]. exists [], all. rewrite app_nil_r. exact Pn.
Qed.
Lemma lists_ok_inv : forall us E p d x c t, search_inv us E p d (x :: c) t -> lists_ok E (answers ask (query p) d) (view p).
Proof. intros us E p d x c t []. unfold lists_ok. cores. destruct i_lists0 as [H|[H|(_ & _ & _ & _ & H & _)]]; [left; exact H|right; exact H|discriminate]. Qed.

Lemma apply_inv : forall u us E p d c t, base (u :: us) p -> search_inv (u :: us) E p d c t ->
  exists d' c', search_inv us E (fst (apply_update u p)) d' c' t.
Proof.
  intros u us E p d c t B I. destruct u as [g hs|g|g ne].
  - destruct (Nat.eqb_spec g (generation p)) as [-> |N].
    2:{ exists d, c. unfold apply_update. rewrite (proj2 (Nat.eqb_neq _ _) N). cbn [negb fst]. eapply inv_drop; [|exact I]. cbn. rewrite (proj2 (Nat.eqb_neq _ _) N). reflexivity. }
    destruct (not_given_up _ _ _ B) as [G Fe]. destruct (apply_results p hs (b_pending _ _ B) Fe (b_selected _ _ B)) as [R K].
    generalize dependent (fst (apply_update (ProviderResults (generation p) hs) p)). intros r R K.
    assert (Ic : exists x c', c = x :: c' /\ hs = ask x (trim (query p)) /\ results (generation p) us = map (fun x => ask x (trim (query p))) c').
    { pose proof (i_chan _ _ _ _ _ _ I) as H. rewrite results_cons in H. cbn [results flat_map] in H. rewrite Nat.eqb_refl in H. cbn [app] in H. fold (results (generation p) us) in H.
      destruct c as [|x c']; [discriminate|]. injection H as H1 H2. exists x, c'. auto. }
    destruct Ic as (x & c' & -> & -> & Ic). exists (d ++ [x]), c'.
    pose proof (lists_ok_inv _ _ _ _ _ _ _ I) as Lo. apply (receive_ok _ _ (ask x (trim (query p)))) in Lo; [|apply I].
    assert (An : answers ask (query p) d ++ ask x (trim (query p)) = answers ask (query p) (d ++ [x])) by (rewrite answers_app; cbn; rewrite app_nil_r; reflexivity).
    rewrite An in Lo.
    assert (Co : counter p + length (ask x (trim (query p))) = length (answers ask (query p) (d ++ [x]))) by (rewrite <- An, app_length, (i_counter _ _ _ _ _ _ I); reflexivity).
    assert (Pe : Permutation (providers p) ((d ++ [x]) ++ c' ++ t)) by (rewrite (i_perm _ _ _ _ _ _ I), <- app_assoc; reflexivity).
    assert (Cm : S (completed p) = length (d ++ [x])) by (rewrite app_length, (i_completed _ _ _ _ _ _ I); cbn; lia).
    assert (Full : c' = [] -> t = [] -> expected p <= S (completed p)).
    { intros -> ->. rewrite (i_expected _ _ _ _ _ _ I), Cm. apply Permutation_length in Pe. rewrite !app_length in Pe. rewrite app_length. cbn in *. lia. }
    assert (Full' : expected p <= S (completed p) -> c' = [] /\ t = []).
    { intros L. rewrite (i_expected _ _ _ _ _ _ I), Cm in L. apply Permutation_length in Pe. rewrite !app_length in Pe. rewrite app_length in L.
      split; apply length_zero_iff_nil; lia. }
    destruct I as [I1 I2 I3 I4 I5 I6 I7 I8 I9 I10 I11].
    destruct K as [(L & A)|[(L & Np & A)|(L & [A|(m & A & -> & Em & Q)])]].
    + open_alike A. unfold received_core in *. cores. unfold lists_ok in Lo. cores.
      split; rewrite ?A2, ?A3, ?A4, ?A5, ?A6, ?A7, ?A8, ?A9, ?A10, ?A11, ?A12, ?A13; auto.
      * destruct Lo as [Lo|Lo]; auto.
      * intros Z1 Z2. specialize (Full Z1 Z2). lia.
      * intros C. contradiction (G C).
    + apply listed_all_ok in Lo. open_alike A. unfold lists_ok in Lo. set (E' := c_entries (listed_all (received_core (ask x (trim (query p))) p))) in *. clearbody E'. unfold listed_all, received_core in *. cores.
      split; rewrite ?A2, ?A3, ?A4, ?A5, ?A6, ?A7, ?A8, ?A9, ?A10, ?A11, ?A12, ?A13; auto.
      * destruct Lo as [Lo|Lo]; auto.
      * intros C. contradiction (G C).
    + apply listed_all_ok in Lo. open_alike A. unfold lists_ok in Lo. set (E' := c_entries (listed_all (received_core (ask x (trim (query p))) p))) in *. clearbody E'. unfold listed_all, received_core in *. cores.
      split; rewrite ?A2, ?A3, ?A4, ?A5, ?A6, ?A7, ?A8, ?A9, ?A10, ?A11, ?A12, ?A13; auto.
      * destruct Lo as [Lo|Lo]; auto.
      * intros C. contradiction (G C).
    + apply listed_all_ok in Lo. open_alike A. unfold lists_ok in Lo. set (E' := c_entries (listed_all (received_core (ask x (trim (query p))) p))) in *. clearbody E'. unfold listed_all, received_core in *. cores.
      split; fields; rewrite ?A2, ?A3, ?A4, ?A5, ?A6, ?A7, ?A8, ?A9, ?A10, ?A11, ?A12; auto.
      * rewrite searches_nil_or. exact I5.
      * destruct Lo as [Lo|Lo]; auto.
      * intros _. destruct (Full' L). repeat split; auto. rewrite <- A3, Em in Lo. destruct Lo as [(C & _)|(_ & a & H1 & H2 & _)]; [discriminate|].
        apply Permutation_nil in H2. subst a. rewrite app_nil_r in H1. destruct (answers ask (query p) (d ++ [x])); [reflexivity|discriminate].
  - exists d, c. assert (D : search_inv us E p d c t) by (eapply inv_drop; [|exact I]; reflexivity). unfold apply_update. destruct (negb (g =? generation p)); cbn [fst]; [exact D|].
    destruct (listed p); [|exact D]. eapply inv_alike; [exact D|]. same.
  - exists d, c. assert (D : search_inv us E p d c t) by (eapply inv_drop; [|exact I]; reflexivity). unfold apply_update. destruct (Nat.eqb_spec g (generation p)) as [-> |N]; cbn [negb fst]; [|exact D].
    destruct ne; cbn [fst].
    + destruct (i_gives_up _ _ _ _ _ _ I) as (-> & -> & An & Q); [left; exists true; left; reflexivity|].
      apply (inv_alike us E (set_listed true (set_selected 0 (set_entries [no_matches] p)))); [|apply sync_alike].
      destruct D as [I1 I2 I3 I4 I5 I6 I7 I8 I9 I10 I11]. split; fields; auto.
      right. right. destruct (I10 eq_refl eq_refl) as [H _]. repeat split; auto.
    + eapply (inv_alike us E (set_listed false p)); [|apply sync_alike]. eapply inv_alike; [exact D|]. same.
Qed.

(** *** What most functions leave alone *)
Definition highlight (e : pevent) : Prop := match e with Highlighted _ _ _ => True | _ => False end.
Definition frame (q p : palette) : Prop :=
  visible q = visible p /\ generation q = generation p /\ channel q = channel p /\ providers q = providers p /\ run_on_select q = run_on_select p /\
  restore_focus q = restore_focus p /\ pending_action q = pending_action p /\ selected_action q = selected_action p /\
  exists hs, events q = events p ++ hs /\ Forall highlight hs /\ (visible p = false -> hs = []).
Lemma frame_refl : forall p, frame p p.
Proof. intros p. unfold frame. repeat (split; [reflexivity|]). exists []. rewrite app_nil_r. auto. Qed.
Lemma frame_trans : forall p q r, frame p q -> frame q r -> frame p r.
Proof.
  intros p q r (F1 & F2 & F3 & F4 & F5 & F6 & F7 & F8 & hs & F9 & F10 & F11) (G1 & G2 & G3 & G4 & G5 & G6 & G7 & G8 & ks & G9 & G10 & G11).
  unfold frame. repeat (split; [etransitivity; eauto|]). exists (ks ++ hs). rewrite F9, G9, app_assoc. split; [reflexivity|]. split; [apply Forall_app; auto|].
  intros V. rewrite (G11 V), (F11 (eq_trans G1 V)). reflexivity.
Qed.
Ltac framed := unfold frame; fields; repeat match goal with |- _ /\ _ => split end; try reflexivity; exists []; rewrite app_nil_r; auto.
Lemma frame_selected : forall n p, frame (set_selected n p) p. Proof. intros. framed. Qed.
Lemma frame_listed : forall n p, frame (set_listed n p) p. Proof. intros. framed. Qed.
Lemma frame_busy : forall n p, frame (set_busy n p) p. Proof. intros. framed. Qed.
Lemma frame_entries : forall n p, frame (set_entries n p) p. Proof. intros. framed. Qed.
Lemma frame_pending : forall n p, frame (set_pending n p) p. Proof. intros. framed. Qed.
Lemma frame_clear : forall n p, frame (set_clear_current n p) p. Proof. intros. framed. Qed.
Lemma frame_last : forall n p, frame (set_last_update n p) p. Proof. intros. framed. Qed.
Lemma frame_tasks : forall n p, frame (set_tasks n p) p. Proof. intros. framed. Qed.
Lemma frame_counter : forall n p, frame (set_counter n p) p. Proof. intros. framed. Qed.
Lemma frame_completed : forall n p, frame (set_completed n p) p. Proof. intros. framed. Qed.
Lemma frame_expected : forall n p, frame (set_expected n p) p. Proof. intros. framed. Qed.
Lemma frame_query : forall n p, frame (set_query n p) p. Proof. intros. framed. Qed.
Ltac by_frame := first [apply frame_refl | eapply frame_trans; [first [apply frame_selected | apply frame_listed | apply frame_busy | apply frame_entries | apply frame_pending | apply frame_clear | apply frame_last | apply frame_tasks | apply frame_counter | apply frame_completed | apply frame_expected | apply frame_query]|]].
Lemma frame_sync : forall p, frame (sync p) p.
Proof. intros p. destruct (sync_same p) as [-> | ->]; repeat by_frame. Qed.
Lemma frame_emit : forall p, frame (emit p) p.
Proof.
  intros p. unfold emit. destruct (negb (visible p) || negb (listed p)) eqn:V; [apply frame_refl|]. destruct (nth_error (entries p) (selected p)) as [e|]; [|apply frame_refl].
  destruct (e_disabled e); [apply frame_refl|]. unfold frame, enqueue. fields. repeat (split; [reflexivity|]). eexists. split; [reflexivity|]. split; [repeat constructor|].
  intros Z0. rewrite Z0 in V. discriminate.
Qed.
Lemma frame_normalize : forall p, frame (normalize p) p.
Proof.
  intros p. unfold normalize. destruct (entries p) eqn:E; [repeat by_frame|]. cbn zeta.
  match goal with |- context [if ?b then set_selected ?n p else p] => assert (Q : frame (if b then set_selected n p else p) p) by (destruct b; repeat by_frame); generalize dependent (if b then set_selected n p else p) end.
  intros q Q. destruct (nth_error (entries q) (selected q)) as [x|]; [|exact Q]. destruct (e_disabled x); [|exact Q].
  destruct (next_enabled (entries q) (selected q)); [by_frame; exact Q|]. destruct (prev_enabled (entries q) (selected q)); [by_frame; exact Q|exact Q].
Qed.
Lemma frame_refresh : forall p, frame (refresh p) p.
Proof.
  intros p. unfold refresh. assert (Q : frame (set_entries (sort_entries (entries p)) p) p) by (repeat by_frame).
  generalize dependent (set_entries (sort_entries (entries p)) p). intros q Q.
  match goal with |- frame (if listed ?x then _ else _) _ => assert (R : frame x p) end.
  { eapply frame_trans; [apply frame_sync|]. destruct (entries q) eqn:E; [repeat by_frame; exact Q|]. by_frame. eapply frame_trans; [apply frame_normalize|]. by_frame. exact Q. }
  match goal with |- frame (if listed ?x then _ else _) _ => generalize dependent x end. intros r R.
  destruct (listed r); [eapply frame_trans; [apply frame_emit|exact R]|exact R].
Qed.
Lemma frame_flush : forall p, frame (flush p) p.
Proof.
  intros p. unfold flush. destruct (pending p); [apply frame_refl|]. cbn zeta. destruct (clear_current p); (eapply frame_trans; [apply frame_refresh|]); repeat by_frame.
Qed.
Lemma frame_timed : forall p, frame (timed_flush p) p.
Proof. intros p. unfold timed_flush. destruct (250 <? now p - last_update p); [by_frame; apply frame_flush|apply frame_refl]. Qed.
Lemma frame_finish : forall p, frame (finish p) p.
Proof.
  intros p. unfold finish. destruct (clear_current p && is_nil (pending p)).
  - eapply frame_trans; [apply frame_refresh|]. eapply frame_trans; [apply frame_flush|]. repeat by_frame.
  - apply frame_flush.
Qed.
Lemma frame_receive : forall hs p, frame (receive hs p) p.
Proof. intros hs p. unfold receive. repeat by_frame. Qed.
Lemma frame_apply : forall u p, frame (fst (apply_update u p)) p.
Proof.
  intros u p. unfold apply_update. destruct u as [g hs|g|g ne]; destruct (negb (g =? generation p)); cbn [fst]; try apply frame_refl.
  - cbn zeta. assert (Q : frame (timed_flush (receive hs p)) p) by (eapply frame_trans; [apply frame_timed|apply frame_receive]).
    generalize dependent (timed_flush (receive hs p)). intros q Q. destruct (expected q <=? completed q); cbn [fst]; [|exact Q].
    assert (R : frame (finish (set_busy false q)) p) by (eapply frame_trans; [apply frame_finish|]; by_frame; exact Q).
    generalize dependent (finish (set_busy false q)). intros r R. match goal with |- frame (if ?b then _ else _) _ => destruct b end; [by_frame|]; exact R.
  - destruct (listed p); repeat by_frame.
  - destruct ne; cbn [fst]; (eapply frame_trans; [apply frame_sync|]); repeat by_frame.
Qed.
Lemma frame_move : forall f p, frame (move_selection f p) p.
Proof. intros f p. unfold move_selection. destruct (if f then _ else _); [|apply frame_refl]. eapply frame_trans; [apply frame_emit|]. repeat by_frame. Qed.
Lemma frame_arrow : forall f p, frame (arrow f p) p.
Proof. intros f p. unfold arrow. destruct (negb (listed p) && negb (is_nil (entries p))); [|apply frame_move]. eapply frame_trans; [apply frame_emit|]. eapply frame_trans; [apply frame_sync|]. repeat by_frame. Qed.

(** *** Closing *)
Lemma close_closed : forall b p, visible p = false -> close_with b p = p.
Proof. intros b p V. unfold close_with. rewrite V. reflexivity. Qed.
Definition put_away (p : palette) : palette :=
  sync (set_busy false (set_listed false (set_pending [] (set_entries [] (set_selected_action None (set_selected 0 (set_query [] (cancel_search (set_visible false p))))))))).
Lemma close_open : forall b p, visible p = true -> close_with b p = enqueue (Closed b) (refresh (put_away p)).
Proof. intros b p V. unfold close_with, put_away. rewrite V. reflexivity. Qed.
Lemma put_away_alike : forall p, alike (put_away p) (Core false [] [] [] (clear_current p) (counter p) 0 0 (providers p) (generation p) None (run_on_select p) (tasks p)).
Proof. intros p. unfold put_away. eapply alike_trans; [apply sync_alike|]. same. Qed.
Lemma put_away_rest : forall p, channel (put_away p) = channel p /\ events (put_away p) = events p /\ pending_action (put_away p) = pending_action p /\ restore_focus (put_away p) = restore_focus p.
Proof.
  intros p. unfold put_away. match goal with |- context [sync ?x] => pose proof (frame_sync x) as F; assert (H : channel x = channel p /\ events x = events p /\ pending_action x = pending_action p /\ restore_focus x = restore_focus p) by (fields; auto); assert (V : visible x = false) by reflexivity; generalize dependent x end.
  intros x F (H1 & H2 & H3 & H4) V. destruct F as (_ & _ & F3 & _ & _ & F6 & F7 & _ & hs & F9 & _ & F11). rewrite (F11 V), app_nil_r in F9. rewrite F3, F6, F7, F9. auto.
Qed.
Lemma enqueue_alike : forall e p c, alike p c -> alike (enqueue e p) c.
Proof. intros e p c A. open_alike A. unfold alike, enqueue. fields. repeat match goal with |- _ /\ _ => split end; assumption. Qed.
Lemma close_alike : forall b p, visible p = true ->
  alike (close_with b p) (Core false [] [] [] (clear_current p) (counter p) 0 0 (providers p) (generation p) None (run_on_select p) (tasks p)) /\
  selected (close_with b p) = 0 /\ channel (close_with b p) = channel p /\ events (close_with b p) = events p ++ [Closed b] /\
  pending_action (close_with b p) = pending_action p /\ restore_focus (close_with b p) = restore_focus p.
Proof.
  intros b p V. rewrite (close_open b p V). pose proof (put_away_alike p) as A. destruct (put_away_rest p) as (R1 & R2 & R3 & R4).
  generalize dependent (put_away p). intros q A R1 R2 R3 R4.
  assert (En : entries q = []) by (open_alike A; exact A3). assert (Vq : visible q = false) by (open_alike A; exact A1).
  destruct (refresh_empty q En) as [Ar S0]. pose proof (frame_refresh q) as F. generalize dependent (refresh q). intros r Ar S0 F.
  destruct F as (_ & _ & F3 & _ & _ & F6 & F7 & _ & hs & F9 & _ & F11). rewrite (F11 Vq), app_nil_r in F9.
  split; [apply enqueue_alike; eapply alike_trans; [exact Ar|exact A]|]. unfold enqueue. fields. rewrite F3, F6, F7, F9, R1, R2, R3, R4. auto.
Qed.
Lemma close_base : forall b us p, base us p -> base us (close_with b p).
Proof.
  intros b us p B. destruct (visible p) eqn:V; [|rewrite close_closed; auto]. destruct (close_alike b p V) as (A & S0 & _).
  generalize dependent (close_with b p). intros r A S0. destruct B as [B1 B2 B3 B4 B5 B6 B7 B8]. open_alike A.
  split; rewrite ?A1, ?A2, ?A3, ?A4, ?A5, ?A7, ?A8, ?A9, ?A10, ?A13, ?S0; auto; try discriminate.
  intros [G|[[] _]]. destruct B5 as (H1 & H2 & _); auto.
Qed.

(** *** Every step keeps the invariants *)
Definition good (p : palette) : Prop := base (channel p) p /\ run_on_select p = true /\ selected_action p = None.
Definition searching (E : list entry) (p : palette) : Prop := exists d c t, search_inv (channel p) E p d c t.

Lemma surface_good : forall p q, good p -> alike q (view p) -> channel q = channel p -> in_range q -> good q.
Proof.
  intros p q (B & R & S) A C I. split; [|open_alike A; split; congruence]. rewrite C. eapply base_alike; eauto.
Qed.
Lemma surface_searching : forall E p q, searching E p -> alike q (view p) -> channel q = channel p -> searching E q.
Proof. intros E p q (d & c & t & I) A C. exists d, c, t. rewrite C. eapply inv_alike; eauto. Qed.
Lemma base_in_range : forall us p, base us p -> in_range p.
Proof. intros us p B. apply B. Qed.

Lemma apply_all_fst : forall u us p, fst (apply_all (u :: us) p) = fst (apply_all us (fst (apply_update u p))).
Proof. intros u us p. cbn [apply_all]. destruct (apply_update u p) as [p1 b1]. cbn [fst]. destruct (apply_all us p1). reflexivity. Qed.
Lemma frame_apply_all : forall us p, frame (fst (apply_all us p)) p.
Proof. induction us as [|u us IH]; intros p; [apply frame_refl|]. rewrite apply_all_fst. eapply frame_trans; [apply IH|apply frame_apply]. Qed.
Lemma apply_all_base : forall us p, base us p -> base [] (fst (apply_all us p)).
Proof. induction us as [|u us IH]; intros p B; [exact B|]. rewrite apply_all_fst. apply IH, apply_base, B. Qed.
Lemma apply_all_inv : forall us E p d c t, base us p -> search_inv us E p d c t -> exists d' c', search_inv [] E (fst (apply_all us p)) d' c' t.
Proof.
  induction us as [|u us IH]; intros E p d c t B I; [exists d, c; exact I|]. rewrite apply_all_fst. destruct (apply_inv _ _ _ _ _ _ _ B I) as (d' & c' & I').
  eapply IH; [apply apply_base, B|exact I'].
Qed.
Lemma channel_base : forall us ch p, base us p -> base us (set_channel ch p).
Proof. intros us ch p B. eapply base_alike; [exact B|same|apply B]. Qed.
Lemma channel_inv : forall us ch E p d c t, search_inv us E p d c t -> search_inv us E (set_channel ch p) d c t.
Proof. intros us ch E p d c t I. eapply inv_alike; [exact I|same]. Qed.
Lemma channel_empty_visible : forall p, visible (set_channel [] p) = visible p /\ generation (set_channel [] p) = generation p /\ events (set_channel [] p) = events p.
Proof. intros p. fields. auto. Qed.

Lemma drain_good : forall p, good p -> good (fst (drain_updates p)).
Proof.
  intros p (B & R & S). unfold drain_updates. apply (channel_base _ []) in B. pose proof (frame_apply_all (channel p) (set_channel [] p)) as F.
  apply apply_all_base in B. generalize dependent (fst (apply_all (channel p) (set_channel [] p))). intros r B F.
  destruct F as (_ & _ & F3 & _ & F5 & _ & _ & F8 & _). fields_all. unfold good. rewrite F3, F5, F8. auto.
Qed.
Lemma drain_searching : forall E p, good p -> searching E p -> searching E (fst (drain_updates p)).
Proof.
  intros E p (B & R & S) (d & c & t & I). unfold drain_updates. apply (channel_base _ []) in B. pose proof (frame_apply_all (channel p) (set_channel [] p)) as F.
  apply (channel_inv _ []) in I. destruct (apply_all_inv _ _ _ _ _ _ B I) as (d' & c' & I'). exists d', c', t. destruct F as (_ & _ & F3 & _).
  generalize dependent (fst (apply_all (channel p) (set_channel [] p))). intros r F3 I'. fields_all. rewrite F3. exact I'.
Qed.

(** A task ends. *)
Lemma take_nth_split {A} : forall i (l : list A) x r, take_nth i l = Some (x, r) -> exists a b, l = a ++ x :: b /\ r = a ++ b.
Proof.
  induction i as [|i IH]; intros [|y l] x r H; cbn in H; try discriminate.
  - injection H as <- <-. exists [], l. auto.
  - destruct (take_nth i l) as [[z q]|] eqn:E; [|discriminate]. cbn in H. injection H as <- <-. destruct (IH _ _ _ E) as (a & b & -> & ->). exists (y :: a), b. auto.
Qed.
Definition sent (t : task P) (r : list (task P)) (p : palette) : palette := set_channel (channel p ++ [sends ask t]) (set_tasks r p).
Lemma ugen_sends : forall t, ugen (sends ask t) = tgen t.
Proof. intros []; reflexivity. Qed.
Lemma results_sends : forall g t, length (results g [sends ask t]) = length (searches g [t]).
Proof. intros g [k x q|k|k w]; cbn; try reflexivity. destruct (k =? g); reflexivity. Qed.
Lemma gives_up_sends : forall g us a t b, gives_up g (us ++ [sends ask t]) (a ++ b) -> gives_up g us (a ++ t :: b).
Proof.
  intros g us a t b [[x H]|[x H]].
  - apply in_app_or in H. destruct H as [H|[H|[]]]; [left; exists x; exact H|]. right. destruct t; try discriminate. cbn in H. injection H as -> ->.
    eexists. apply in_or_app. right. left. reflexivity.
  - right. exists x. apply in_app_or in H. apply in_or_app. destruct H; [left; assumption|right; right; assumption].
Qed.
Lemma sent_base : forall us a t b p, base us p -> tasks p = a ++ t :: b -> base (us ++ [sends ask t]) (set_tasks (a ++ b) p).
Proof.
  intros us a t b p [B1 B2 B3 B4 B5 B6 B7 B8] T. rewrite T in *.
  assert (Sp : searches (generation p) (a ++ t :: b) = searches (generation p) a ++ searches (generation p) [t] ++ searches (generation p) b).
  { change (t :: b) with ([t] ++ b). rewrite !searches_app. reflexivity. }
  rewrite Sp in *. split; fields; auto.
  - apply Forall_app. split; [exact B1|]. repeat constructor. rewrite ugen_sends. rewrite Forall_forall in B2. apply B2, in_or_app. right. left. reflexivity.
  - apply Forall_app in B2. destruct B2 as [Ba Bb]. inversion Bb; subst. apply Forall_app. auto.
  - intros V. specialize (B4 V). rewrite results_app, searches_app, !app_length, results_sends in *. lia.
  - intros H. assert (H' : gives_up (generation p) us (a ++ t :: b) \/ In no_matches (entries p) /\ clear_current p = false).
    { destruct H as [H|H]; [left; eapply gives_up_sends; exact H|right; exact H]. }
    destruct (B5 H') as (R & S & Q). destruct (app_eq_nil _ _ S) as [S1 S23]. destruct (app_eq_nil _ _ S23) as [S2 S3].
    rewrite results_app, searches_app, R, S1, S3. split; [|auto]. apply length_zero_iff_nil. cbn [app]. rewrite results_sends, S2. reflexivity.
Qed.
Lemma map_split {A B} : forall (f : A -> B) l a x b, map f l = a ++ x :: b -> exists la y lb, l = la ++ y :: lb /\ map f la = a /\ f y = x /\ map f lb = b.
Proof.
  intros f l a. revert l. induction a as [|z a IH]; intros [|y l] x b H; try discriminate.
  - injection H as H1 H2. exists [], y, l. auto.
  - injection H as H1 H2. destruct (IH _ _ _ H2) as (la & w & lb & -> & <- & E & F). exists (y :: la), w, lb. cbn. rewrite H1. auto.
Qed.
Lemma sent_inv : forall us E a t b p d c k, search_inv us E p d c k -> tasks p = a ++ t :: b ->
  exists c' k', search_inv (us ++ [sends ask t]) E (set_tasks (a ++ b) p) d c' k'.
Proof.
  intros us E a t b p d c k [I1 I2 I3 I4 I5 I6 I7 I8 I9 I10 I11] T. rewrite T in *.
  assert (Sp : searches (generation p) (a ++ t :: b) = searches (generation p) a ++ searches (generation p) [t] ++ searches (generation p) b).
  { change (t :: b) with ([t] ++ b). rewrite !searches_app. reflexivity. }
  rewrite Sp in I5.
  destruct (searches (generation p) [t]) as [|[x q] rest] eqn:St.
  - exists c, k. assert (Rt : results (generation p) [sends ask t] = []) by (apply length_zero_iff_nil; rewrite results_sends, St; reflexivity).
    split; fields; auto; try (intros H; apply gives_up_sends in H; auto).
    + rewrite results_app, Rt, app_nil_r. exact I4.
    + rewrite searches_app. exact I5.
  - assert (Ht : t = Search (generation p) x q /\ rest = []).
    { destruct t as [g y w|g|g w]; cbn in St; try discriminate. destruct (Nat.eqb_spec g (generation p)); [|discriminate]. injection St as -> -> <-. subst g. auto. }
    destruct Ht as [-> ->]. cbn [app] in I5. symmetry in I5. destruct (map_split _ _ _ _ _ I5) as (ka & y & kb & -> & Ka & Ey & Kb). injection Ey as -> <-.
    exists (c ++ [x]), (ka ++ kb). split; fields; auto.
    + rewrite I3. rewrite <- app_assoc. apply Permutation_app_head, Permutation_app_head. cbn [app]. symmetry. apply Permutation_middle.
    + rewrite results_app, I4, map_app. cbn. rewrite Nat.eqb_refl. reflexivity.
    + rewrite searches_app, map_app, Ka, Kb. reflexivity.
    + destruct I9 as [H|[H|(_ & _ & _ & _ & _ & H)]]; [auto|auto|]. apply app_eq_nil in H. destruct H; discriminate.
    + intros H _. apply app_eq_nil in H. destruct H; discriminate.
    + intros H. apply gives_up_sends in H. destruct (I11 H) as (_ & K & _). apply app_eq_nil in K. destruct K; discriminate.
Qed.
Lemma sent_good : forall a t b p, good p -> tasks p = a ++ t :: b -> good (sent t (a ++ b) p).
Proof.
  intros a t b p (B & R & S) T. unfold sent. pose proof (sent_base _ _ _ _ _ B T) as B'. apply (channel_base _ (channel p ++ [sends ask t])) in B'. split; [exact B'|]. fields. auto.
Qed.
Lemma sent_searching : forall E a t b p, searching E p -> tasks p = a ++ t :: b -> searching E (sent t (a ++ b) p).
Proof.
  intros E a t b p (d & c & k & I) T. destruct (sent_inv _ _ _ _ _ _ _ _ _ I T) as (c' & k' & I'). exists d, c', k'. unfold sent. apply (channel_inv _ (channel p ++ [sends ask t])) in I'. exact I'.
Qed.

Lemma move_alike : forall f p, alike (move_selection f p) (view p).
Proof.
  intros f p. unfold move_selection. destruct (if f then _ else _) as [i|]; [|apply alike_refl]. eapply alike_trans; [apply emit_alike|same].
Qed.
Lemma arrow_alike : forall f p, alike (arrow f p) (view p).
Proof.
  intros f p. unfold arrow. destruct (negb (listed p) && negb (is_nil (entries p))); [|apply move_alike]. eapply alike_trans; [apply emit_alike|]. eapply alike_trans; [apply sync_alike|same].
Qed.
(** The arrows, on a list in which everything can be chosen or nothing. *)
Lemma move_selected : forall f us p, base us p -> selected (move_selection f p) = if f then Nat.min (S (selected p)) (length (entries p) - 1) else selected p - 1.
Proof.
  intros f us p B. unfold move_selection. destruct (b_entries _ _ B) as [F|F].
  - pose proof (b_selected _ _ B) as Rg. destruct f.
    + rewrite (next_all _ _ F). destruct (Nat.ltb_spec (S (selected p)) (length (entries p))); [rewrite emit_selected; cbn [set_selected selected]; lia|lia].
    + rewrite (prev_all _ _ F) by lia. destruct (selected p) as [|i] eqn:Q; [exact Q|]. rewrite emit_selected. cbn [set_selected selected]. lia.
  - pose proof (b_selected _ _ B) as Rg. rewrite F in *. cbn [length] in *. assert (S0 : selected p = 0) by (destruct Rg as [Rg|[Rg _]]; [lia|discriminate]). rewrite S0. destruct f; exact S0.
Qed.
Lemma arrow_selected : forall f us p, base us p -> selected (arrow f p) = selected p \/ selected (arrow f p) = if f then Nat.min (S (selected p)) (length (entries p) - 1) else selected p - 1.
Proof.
  intros f us p B. unfold arrow. destruct (negb (listed p) && negb (is_nil (entries p))); [left; rewrite emit_selected, sync_selected; reflexivity|right; eapply move_selected; exact B].
Qed.
Lemma arrow_range : forall f us p, base us p -> in_range (arrow f p).
Proof.
  intros f us p B. pose proof (arrow_alike f p) as A. pose proof (arrow_selected f us p B) as S. pose proof (b_selected _ _ B) as R.
  generalize dependent (arrow f p). intros q A S. open_alike A. unfold in_range. rewrite A3. destruct S as [S|S]; rewrite S; [exact R|]. destruct R as [R|[R1 R2]]; [left; destruct f; lia|right; rewrite R1, R2; destruct f; cbn; auto].
Qed.
Lemma set_action_alike : forall a p, alike (set_pending_action a p) (view p).
Proof. intros. same. Qed.
(** Choosing an entry. *)
Lemma activate_cases : forall p, run_on_select p = true ->
  activate p = p \/ exists e a, nth_error (entries p) (selected p) = Some e /\ e_disabled e = false /\ e_action e = Some a /\ activate p = close_with true (set_pending_action (Some a) p).
Proof.
  intros p R. unfold activate. destruct (nth_error (entries p) (selected p)) as [e|]; [|auto]. destruct (e_disabled e) eqn:D; [auto|]. rewrite R.
  destruct (e_action e) as [a|] eqn:Q; [|auto]. right. exists e, a. auto.
Qed.
Lemma submit_cases : forall p, run_on_select p = true -> selected_action p = None -> submit p = p \/ (listed p = true /\ submit p = activate p).
Proof. intros p R S. unfold submit. destruct (listed p); [auto|]. rewrite S. auto. Qed.

(** *** Starting a search leaves the rest alone *)
Definition rest (q p : palette) : Prop :=
  visible q = visible p /\ channel q = channel p /\ restore_focus q = restore_focus p /\ pending_action q = pending_action p /\ events q = events p.
Lemma rest_refl : forall p, rest p p. Proof. repeat split. Qed.
Lemma rest_trans : forall p q r, rest p q -> rest q r -> rest p r.
Proof. unfold rest. intros p q r H K. decompose [and] H. decompose [and] K. repeat split; congruence. Qed.
Lemma rest_sync : forall p, rest (sync p) p.
Proof. intros p. destruct (sync_same p) as [-> | ->]; repeat split. Qed.
Lemma rest_tasks : forall ts p, rest (set_tasks ts p) p. Proof. intros. repeat split. Qed.
Lemma refresh_empty_rest : forall p, entries p = [] -> rest (refresh p) p.
Proof.
  intros p E. unfold refresh. assert (Q : rest (set_entries (sort_entries (entries p)) p) p) by (repeat split). assert (Eq : entries (set_entries (sort_entries (entries p)) p) = []) by (rewrite E; reflexivity).
  generalize dependent (set_entries (sort_entries (entries p)) p). intros q Q Eq. rewrite Eq.
  assert (R : rest (sync (set_listed false (set_selected 0 q))) p) by (eapply rest_trans; [apply rest_sync|]; eapply rest_trans; [|exact Q]; repeat split).
  assert (L : listed (sync (set_listed false (set_selected 0 q))) = false) by (destruct (sync_same (set_listed false (set_selected 0 q))) as [-> | ->]; reflexivity).
  rewrite L. exact R.
Qed.
Lemma begin_rest : forall q p, rest (begin_search q p) p.
Proof.
  intros q p. unfold begin_search. cbn zeta. eapply rest_trans; [apply rest_sync|]. match goal with |- rest (if ?b then _ else _) _ => destruct b end; (unfold rest; fields; repeat split).
Qed.
Lemma set_listed_entries_rest : forall p, rest (set_listed false (set_entries [] p)) p. Proof. repeat split. Qed.
Lemma begun_empty_rest : forall q p, rest (begun_empty q p) p.
Proof.
  intros q p. unfold begun_empty. pose proof (begin_rest q p) as R. generalize dependent (begin_search q p). intros b R.
  assert (R' : rest (sync (set_listed false (set_entries [] b))) p) by (eapply rest_trans; [apply rest_sync|]; eapply rest_trans; [apply set_listed_entries_rest|exact R]).
  assert (E : entries (sync (set_listed false (set_entries [] b))) = []) by (destruct (sync_same (set_listed false (set_entries [] b))) as [-> | ->]; reflexivity).
  generalize dependent (sync (set_listed false (set_entries [] b))). intros s R' E. eapply rest_trans; [apply refresh_empty_rest; exact E|exact R'].
Qed.
Lemma start_rest : forall q p, rest (start_search q p) p.
Proof.
  intros q p. rewrite start_search_eq. destruct (length (providers p) =? 0).
  - destruct (is_nil (trim q)); [|eapply rest_trans; [apply rest_tasks|]]; apply begun_empty_rest.
  - eapply rest_trans; [apply rest_tasks|apply begin_rest].
Qed.
Lemma start_generation : forall q p, generation (start_search q p) = S (generation p) /\ run_on_select (start_search q p) = run_on_select p /\
  selected_action (start_search q p) = None /\ query (start_search q p) = q /\ providers (start_search q p) = providers p.
Proof.
  intros q p. destruct (providers p) eqn:E.
  - destruct (start_empty q p E) as [A _]. open_alike A. rewrite A2, A9, A10, A11, A12. auto.
  - destruct (start_some q p) as [A _]; [congruence|]. open_alike A. rewrite A2, A9, A10, A11, A12. auto.
Qed.
Lemma start_good : forall q p, ready (channel p) p -> visible p = true -> run_on_select p = true ->
  good (start_search q p) /\ searching (match providers p with [] => [] | _ => entries p end) (start_search q p).
Proof.
  intros q p B V R. pose proof (start_base (channel p) q p B V) as B'. pose proof (start_inv (channel p) q p B R) as I. destruct (start_rest q p) as (_ & C & _). destruct (start_generation q p) as (_ & R' & S' & _).
  generalize dependent (start_search q p). intros s B' I C R' S'. split.
  - split; [rewrite C; exact B'|]. split; congruence.
  - exists [], [], (providers p). rewrite C. exact I.
Qed.

(** [q] is what [p] becomes: the invariants hold and the list, while the search is the same, is still compared with what it began with. *)
Definition ok (E : list entry) (p q : palette) : Prop :=
  good q /\ (visible q = true -> exists E', searching E' q /\ (visible p = true -> generation q = generation p -> E' = E)) /\
  (visible q = true -> visible p = true -> generation q = generation p -> query q = query p /\ providers q = providers p) /\
  generation p <= generation q /\ (visible p = false -> visible q = true -> generation p < generation q).
Lemma ok_surface : forall E p q, good p -> (visible p = true -> searching E p) -> alike q (view p) -> channel q = channel p -> in_range q -> ok E p q.
Proof.
  intros E p q G S A C I. pose proof (surface_good p q G A C I) as Gq. split; [exact Gq|]. split; [|split].
  - intros V. exists E. split; [|auto]. apply (surface_searching E p); auto. apply S. open_alike A. congruence.
  - intros _ _ _. open_alike A. auto.
  - open_alike A. split; [lia|intros; congruence].
Qed.
Lemma ok_same : forall E p, good p -> (visible p = true -> searching E p) -> ok E p p.
Proof. intros E p G S. apply ok_surface; auto; [apply alike_refl|eapply base_in_range; apply G]. Qed.
Lemma ok_close : forall E b p p', good p' -> generation p' = generation p -> ok E p (close_with b p') \/ visible p' = false.
Proof.
  intros E b p p' G Gn. destruct (visible p') eqn:V; [left|auto]. destruct (close_alike b p' V) as (A & S0 & C & _). pose proof (close_base b _ _ (proj1 G)) as B. destruct G as (_ & R & S).
  generalize dependent (close_with b p'). intros r A S0 C B. open_alike A. split; [|split; [|split; [|split]]]; try (intros; congruence); [|lia].
  split; [rewrite C; exact B|]. split; congruence.
Qed.
Lemma ok_start : forall E q p p', ready (channel p') p' -> visible p' = true -> run_on_select p' = true -> generation p' = generation p -> ok E p (start_search q p').
Proof.
  intros E q p p' B V R Gp. destruct (start_good q p' B V R) as [G S]. destruct (start_generation q p') as (Gn & _ & _ & _). generalize dependent (start_search q p'). intros s G S Gn.
  split; [exact G|]. split; [|split; [|split; lia]].
  - intros _. eexists. split; [exact S|]. intros _ H. lia.
  - intros _ _ H. lia.
Qed.
Lemma ok_activate : forall E p p', good p' -> alike p' (view p) -> (visible p = true -> searching E p) -> channel p' = channel p -> good p -> visible p = true -> ok E p (activate p').
Proof.
  intros E p p' G A S C Gp V. destruct (activate_cases p') as [H|(e & a & _ & _ & _ & H)]; [apply G| |]; rewrite H.
  - apply ok_surface; auto. eapply base_in_range; apply G.
  - assert (G' : good (set_pending_action (Some a) p')) by (eapply surface_good; [exact G|same|reflexivity|exact (base_in_range _ _ (proj1 G))]).
    destruct (ok_close E true p _ G') as [K|K]; [open_alike A; exact A10|exact K|]. exfalso. open_alike A. fields_all. congruence.
Qed.
Lemma apply_query : forall u us p, base (u :: us) p -> query (fst (apply_update u p)) = query p.
Proof.
  intros u us p B. destruct u as [g hs|g|g ne].
  - destruct (Nat.eqb_spec g (generation p)) as [-> |N].
    2:{ unfold apply_update. rewrite (proj2 (Nat.eqb_neq _ _) N). reflexivity. }
    destruct (not_given_up _ _ _ B) as [_ Fe]. destruct (apply_results p hs (b_pending _ _ B) Fe (b_selected _ _ B)) as [_ K].
    generalize dependent (fst (apply_update (ProviderResults (generation p) hs) p)). intros r K.
    destruct K as [(L & A)|[(L & Np & A)|(L & [A|(m & A & -> & Em & Q)])]]; destruct A as (_ & A2 & _); exact A2.
  - unfold apply_update. destruct (negb (g =? generation p)); [reflexivity|]. destruct (listed p); reflexivity.
  - unfold apply_update. destruct (negb (g =? generation p)); [reflexivity|]. destruct ne; cbn [fst];
    match goal with |- query (sync ?x) = _ => destruct (sync_same x) as [-> | ->] end; reflexivity.
Qed.
Lemma apply_all_query : forall us p, base us p -> query (fst (apply_all us p)) = query p.
Proof. induction us as [|u us IH]; intros p B; [reflexivity|]. rewrite apply_all_fst. rewrite IH by (apply apply_base, B). eapply apply_query; exact B. Qed.
Lemma step_ok : forall E p l, good p -> (visible p = true -> searching E p) -> ok E p (step ask p l).
Proof.
  intros E p l G S. pose proof (base_in_range _ _ (proj1 G)) as Rg. pose proof (base_ready _ _ (proj1 G)) as Rd. destruct l; cbn [step].
  - (* open *) unfold open_with_focus. destruct (visible p) eqn:V; [apply ok_same; auto; congruence|].
    set (p' := enqueue Opened (sync (set_visible true (set_restore_focus (Some f) p)))).
    assert (A : alike p' (Core true (query p) (entries p) (pending p) (clear_current p) (counter p) (expected p) (completed p) (providers p) (generation p) (selected_action p) (run_on_select p) (tasks p))).
    { unfold p'. apply enqueue_alike. eapply alike_trans; [apply sync_alike|same]. }
    assert (C : channel p' = channel p). { unfold p'. destruct (sync_same (set_visible true (set_restore_focus (Some f) p))) as [-> | ->]; reflexivity. }
    clearbody p'. open_alike A. apply ok_start; try congruence; [|destruct G as (_ & R & _); congruence]. unfold ready in *. rewrite C, A3, A10, A13. exact Rd.
  - (* close *) destruct (ok_close E false p p G eq_refl) as [K|K]; [exact K|]. rewrite close_closed by exact K. apply ok_same; auto.
  - (* providers *) unfold set_providers_. set (p' := set_expected (length ps) (set_providers ps (cancel_search p))).
    assert (A : alike p' (Core (visible p) (query p) (entries p) (pending p) (clear_current p) (counter p) (length ps) 0 ps (generation p) (selected_action p) (run_on_select p) (tasks p))) by (unfold p'; same).
    assert (C : channel p' = channel p) by reflexivity. assert (Sl : selected p' = selected p) by reflexivity. clearbody p'. cbn zeta. open_alike A. rewrite A1.
    destruct (visible p) eqn:V.
    + rewrite A2. apply ok_start; try congruence; [|destruct G as (_ & R & _); congruence]. unfold ready in *. rewrite C, A3, A10, A13. exact Rd.
    + split; [|split; [|split; [|split]]]; try (intros; congruence); [|lia].
      split; [|destruct G as (_ & R1 & R2); split; congruence]. rewrite C. destruct G as [[B1 B2 B3 B4 B5 B6 B7 B8] _].
      split; rewrite ?A1, ?A2, ?A3, ?A4, ?A5, ?A7, ?A8, ?A9, ?A10, ?A13, ?Sl; auto; congruence.
  - (* submit *) destruct (submit_cases p) as [K|[L K]]; [apply G|apply G| |]; rewrite K; [apply ok_same; auto|].
    destruct (visible p) eqn:V; [apply ok_activate; auto; apply alike_refl|].
    destruct (activate_cases p) as [H|(e & a & _ & _ & _ & H)]; [apply G| |]; rewrite H; [apply ok_same; auto; congruence|]. rewrite close_closed by exact V.
    apply ok_surface; auto; [congruence|same].
  - destruct (visible p) eqn:V; [|apply ok_same; auto; congruence]. destruct (ok_close E false p p G eq_refl) as [K|K]; [exact K|congruence].
  - destruct (visible p) eqn:V; [|apply ok_same; auto; congruence]. destruct (submit_cases p) as [K|[L K]]; [apply G|apply G| |]; rewrite K; [apply ok_same; auto|]. apply ok_activate; auto. apply alike_refl.
  - destruct (visible p) eqn:V; [|apply ok_same; auto; congruence]. apply ok_surface; auto; [apply arrow_alike|apply frame_arrow|eapply arrow_range; apply G].
  - destruct (visible p) eqn:V; [|apply ok_same; auto; congruence]. apply ok_surface; auto; [apply arrow_alike|apply frame_arrow|eapply arrow_range; apply G].
  - destruct (visible p && negb (text_eqb q (query p))) eqn:V; [|apply ok_same; auto]. apply andb_true_iff in V. destruct V as [V _]. apply ok_start; auto. apply G.
  - destruct (visible p) eqn:V; [|apply ok_same; auto; congruence]. destruct (ok_close E false p p G eq_refl) as [K|K]; [exact K|congruence].
  - (* click *) destruct (visible p && (i <? length (entries p))) eqn:V; [|apply ok_same; auto]. apply andb_true_iff in V. destruct V as [V L]. apply Nat.ltb_lt in L.
    assert (A : alike (emit (set_selected i p)) (view p)) by (eapply alike_trans; [apply emit_alike|same]).
    assert (C : channel (emit (set_selected i p)) = channel p) by (destruct (frame_emit (set_selected i p)) as (_ & _ & -> & _); reflexivity).
    assert (Sl : selected (emit (set_selected i p)) = i) by (rewrite emit_selected; reflexivity).
    generalize dependent (emit (set_selected i p)). intros q A C Sl. assert (Rq : in_range q) by (open_alike A; unfold in_range; rewrite A3, Sl; left; exact L).
    assert (Gq : good q) by (eapply surface_good; eauto). cbn zeta. destruct release; [apply ok_activate; auto|apply ok_surface; auto].
  - apply ok_surface; auto. same.
  - apply ok_surface; auto. same.
  - destruct (visible p) eqn:V; [apply ok_same; auto|]. apply ok_surface; auto; [congruence|same].
  - apply ok_surface; auto. same.
  - (* finish *) destruct (take_nth i (tasks p)) as [[t r]|] eqn:T; [|apply ok_same; auto]. destruct (take_nth_split _ _ _ _ T) as (a & b & T' & ->). fold (sent t (a ++ b) p).
    split; [apply sent_good; auto|]. split; [|split].
    + intros V. exists E. split; [apply sent_searching; auto|auto].
    + intros _ _ _. split; reflexivity.
    + unfold sent. fields. split; [lia|congruence].
  - (* drain *) pose proof (drain_good p G) as Gd. split; [exact Gd|].
    assert (F : frame (fst (drain_updates p)) (set_channel [] p)) by apply frame_apply_all. destruct F as (F1 & F2 & _ & F4 & _ & _ & _ & F8 & _). destruct (channel_empty_visible p) as (V1 & V2 & _).
    split; [|split].
    + intros V. exists E. split; [|auto]. apply drain_searching; auto. apply S. congruence.
    + intros V V' _. split; [|rewrite F4; reflexivity]. apply (apply_all_query (channel p) (set_channel [] p)). apply channel_base, G.
    + rewrite F1, F2, V1, V2. split; [lia|congruence].
Qed.

(** *** Histories *)
Lemma new_good : good (palette_new true).
Proof. split; [|split; reflexivity]. split; cbn; auto; try discriminate. Qed.
Definition fit (p : palette) : Prop := good p /\ (visible p = true -> exists E, searching E p).
Lemma step_fit : forall p l, fit p -> fit (step ask p l).
Proof.
  intros p l [G S]. destruct (visible p) eqn:V.
  - destruct (S eq_refl) as [E SE]. destruct (step_ok E p l G) as (G' & S' & _); [auto|]. split; [exact G'|]. intros V'. destruct (S' V') as (E' & H & _). exists E'. exact H.
  - destruct (step_ok [] p l G) as (G' & S' & _); [congruence|]. split; [exact G'|]. intros V'. destruct (S' V') as (E' & H & _). exists E'. exact H.
Qed.
Lemma run_fit : forall ls p, fit p -> fit (run ask p ls).
Proof. induction ls as [|l ls IH]; intros p F; [exact F|]. cbn. apply IH, step_fit, F. Qed.
Lemma reachable_fit : forall ls, fit (run ask (palette_new true) ls).
Proof. intros ls. apply run_fit. split; [apply new_good|discriminate]. Qed.

(** All answers have come. *)
Lemma results_none : forall g us, (forall hs, ~ In (ProviderResults g hs) us) -> results g us = [].
Proof.
  intros g us H. induction us as [|u us IH]; [reflexivity|]. rewrite results_cons, IH by (intros hs I; apply (H hs); right; exact I). rewrite app_nil_r.
  destruct u as [k hs|k|k b]; cbn; try reflexivity. destruct (Nat.eqb_spec k g) as [-> |]; [|reflexivity]. exfalso. apply (H hs). left. reflexivity.
Qed.
Lemma searches_none : forall g ts, (forall x q, ~ In (Search g x q) ts) -> searches g ts = [].
Proof.
  intros g ts H. induction ts as [|u us IH]; [reflexivity|]. change (u :: us) with ([u] ++ us). rewrite searches_app, IH by (intros x q I; apply (H x q); right; exact I). rewrite app_nil_r.
  destruct u as [k x q|k|k b]; cbn; try reflexivity. destruct (Nat.eqb_spec k g) as [-> |]; [|reflexivity]. exfalso. apply (H x q). left. reflexivity.
Qed.
Lemma complete : forall p, fit p -> visible p = true -> answered p -> providers p <> [] ->
  exists order, Permutation order (providers p) /\
    (ranking (answers ask (query p) order) (entries p) \/ (answers ask (query p) order = [] /\ trim (query p) <> [] /\ entries p = [no_matches])).
Proof.
  intros p [G S] V [At Ac] Np. destruct (S V) as (E & d & c & t & [I1 I2 I3 I4 I5 I6 I7 I8 I9 I10 I11]).
  rewrite (results_none _ _ Ac) in I4. rewrite (searches_none _ _ At) in I5. symmetry in I4, I5. apply map_eq_nil in I4. apply map_eq_nil in I5. subst c t.
  destruct (I10 eq_refl eq_refl) as [Pn [C|[C _]]]; [|congruence]. rewrite !app_nil_r in I3. exists d. split; [symmetry; exact I3|].
  destruct I9 as [(C' & _)|[(_ & a & H1 & H2 & H3)|(H1 & H2 & _ & H4 & _)]]; [congruence| |right; auto].
  left. split; [|exact H3]. rewrite Pn, app_nil_r in H1. rewrite <- numbered_arrived, H1. exact H2.
Qed.
(** Until then. *)
Lemma shown_so_far : forall E p, searching E p -> entries p = E \/ entries p = [no_matches] \/
  (forall e, In e (entries p) -> exists x h, In x (providers p) /\ In h (ask x (trim (query p))) /\ stands_for h e).
Proof.
  intros E p (d & c & t & [I1 I2 I3 I4 I5 I6 I7 I8 I9 I10 I11]). destruct I9 as [(_ & _ & H)|[(_ & a & H1 & H2 & _)|(H & _)]]; [auto| |auto]. right. right.
  intros e I. apply (Permutation_in _ H2) in I. assert (In e (numbered 0 (answers ask (query p) d))) as I' by (rewrite H1; apply in_or_app; left; exact I).
  destruct (numbered_in _ _ _ I') as (_ & h & Ih & S). apply in_flat_map in Ih. destruct Ih as (x & Ix & Ih). exists x, h. split; [|auto].
  eapply Permutation_in; [symmetry; exact I3|]. apply in_or_app. left. exact Ix.
Qed.
Lemma run_generation : forall ls p, fit p -> generation p <= generation (run ask p ls) /\ (visible p = false -> visible (run ask p ls) = true -> generation p < generation (run ask p ls)).
Proof.
  induction ls as [|l ls IH]; intros p F; [cbn; split; [lia|congruence]|]. cbn [run fold_left]. fold (run ask (step ask p l) ls).
  assert (K : generation p <= generation (step ask p l) /\ (visible p = false -> visible (step ask p l) = true -> generation p < generation (step ask p l))).
  { destruct F as [G S]. destruct (visible p) eqn:V.
    - destruct (S eq_refl) as [E SE]. destruct (step_ok E p l G) as (_ & _ & _ & K); [auto|]. rewrite V in K. exact K.
    - destruct (step_ok [] p l G) as (_ & _ & _ & K); [congruence|]. rewrite V in K. exact K. }
  destruct (IH (step ask p l) (step_fit p l F)) as [H1 H2]. destruct K as [K1 K2]. split; [lia|]. intros V1 V2.
  destruct (visible (step ask p l)) eqn:V; [specialize (K2 V1 eq_refl); lia|specialize (H2 eq_refl V2); lia].
Qed.
Lemma run_searching : forall ls E p, good p -> visible p = true -> searching E p ->
  visible (run ask p ls) = true -> generation (run ask p ls) = generation p ->
  searching E (run ask p ls) /\ query (run ask p ls) = query p /\ providers (run ask p ls) = providers p.
Proof.
  induction ls as [|l ls IH]; intros E p G V S V' Gn; [auto|]. cbn [run fold_left] in *. fold (run ask (step ask p l) ls) in *.
  assert (F : fit p) by (split; [exact G|intros _; exists E; exact S]).
  destruct (run_generation ls (step ask p l) (step_fit p l F)) as [M1 M2]. destruct (step_ok E p l G) as (G' & S' & Q' & K1 & K2); [auto|].
  assert (Ge : generation (step ask p l) = generation p) by lia.
  assert (Ve : visible (step ask p l) = true) by (destruct (visible (step ask p l)) eqn:Z0; [reflexivity|specialize (M2 eq_refl V'); lia]).
  destruct (S' Ve) as (E' & SE & HE). rewrite (HE V Ge) in SE. destruct (Q' Ve V Ge) as [Qq Qp]. rewrite <- Qq, <- Qp. apply IH; auto. congruence.
Qed.
(** *** Events *)
Fixpoint status (o : bool) (es : list pevent) : option bool :=
  match es with
  | [] => Some o
  | Highlighted _ _ _ :: r => if o then status o r else None
  | Opened :: r => if o then None else status true r
  | Closed _ :: r => if o then status false r else None
  end.
Lemma status_app : forall a b o, status o (a ++ b) = match status o a with Some o' => status o' b | None => None end.
Proof. induction a as [|e a IH]; intros b o; [reflexivity|]. cbn. destruct e; destruct o; auto. Qed.
Lemma status_turns : forall es o o', status o es = Some o' -> take_turns o es.
Proof. induction es as [|e es IH]; intros o o' H; [exact I|]. cbn in *. destruct e; destruct o; try discriminate; split; try reflexivity; eapply IH; exact H. Qed.
Lemma status_highlights : forall hs o, Forall highlight hs -> (o = false -> hs = []) -> status o hs = Some o.
Proof.
  intros hs o H. destruct o; [|intros E; rewrite E by reflexivity; reflexivity]. intros _. induction H as [|e hs He H IH]; [reflexivity|]. destruct e; cbn in *; try contradiction. exact IH.
Qed.
Definition heard (p q : palette) : Prop := exists es, events q = events p ++ es /\ status (visible p) es = Some (visible q).
Lemma heard_frame : forall p q, frame q p -> heard p q.
Proof. intros p q (V & _ & _ & _ & _ & _ & _ & _ & hs & E & H & N). exists hs. split; [exact E|]. rewrite V. apply status_highlights; auto. Qed.
Lemma heard_rest : forall p q, rest q p -> heard p q.
Proof. intros p q (V & _ & _ & _ & E). exists []. rewrite app_nil_r, V. auto. Qed.
Lemma heard_same : forall p, heard p p.
Proof. intros p. exists []. rewrite app_nil_r. auto. Qed.
Lemma heard_trans : forall p q r, heard p q -> heard q r -> heard p r.
Proof. intros p q r (a & A1 & A2) (b & B1 & B2). exists (a ++ b). rewrite B1, A1, app_assoc, status_app, A2. auto. Qed.
Lemma heard_close : forall b p, heard p (close_with b p).
Proof.
  intros b p. destruct (visible p) eqn:V; [|rewrite close_closed by exact V; apply heard_same]. destruct (close_alike b p V) as (A & _ & _ & E & _).
  exists [Closed b]. split; [exact E|]. rewrite V. open_alike A. rewrite A1. reflexivity.
Qed.
Lemma heard_action : forall a p, heard p (set_pending_action a p).
Proof. intros a p. exists []. fields. rewrite app_nil_r. auto. Qed.
Lemma heard_activate : forall p, run_on_select p = true -> heard p (activate p).
Proof.
  intros p R. destruct (activate_cases p R) as [-> |(e & a & _ & _ & _ & ->)]; [apply heard_same|]. eapply heard_trans; [apply heard_action|apply heard_close].
Qed.
Lemma heard_submit : forall p, good p -> heard p (submit p).
Proof. intros p (_ & R & S). destruct (submit_cases p R S) as [-> |[_ ->]]; [apply heard_same|apply heard_activate; exact R]. Qed.
Lemma heard_start : forall q p, heard p (start_search q p).
Proof. intros q p. apply heard_rest, start_rest. Qed.
Lemma heard_step : forall p l, good p -> l <> TakeEvents _ -> heard p (step ask p l).
Proof.
  intros p l G N. destruct l; cbn [step]; try (destruct (visible p) eqn:V; [|apply heard_same]).
  - unfold open_with_focus. destruct (visible p) eqn:V; [apply heard_same|]. eapply heard_trans; [|apply heard_start].
    destruct (rest_sync (set_visible true (set_restore_focus (Some f) p))) as (V' & _ & _ & _ & E). generalize dependent (sync (set_visible true (set_restore_focus (Some f) p))). intros q V' E. fields_all.
    exists [Opened]. unfold enqueue. fields. rewrite E, V, V'. auto.
  - apply heard_close.
  - unfold set_providers_. assert (H : heard p (set_expected (length ps) (set_providers ps (cancel_search p)))) by (exists []; fields; rewrite app_nil_r; auto).
    generalize dependent (set_expected (length ps) (set_providers ps (cancel_search p))). intros q H. cbn zeta. destruct (visible q); [eapply heard_trans; [exact H|apply heard_start]|exact H].
  - apply heard_submit, G.
  - apply heard_close.
  - apply heard_submit, G.
  - apply heard_frame, frame_arrow.
  - apply heard_frame, frame_arrow.
  - destruct (negb (text_eqb q (query p))); cbn [andb]; [apply heard_start|apply heard_same].
  - apply heard_close.
  - destruct (i <? length (entries p)); cbn [andb]; [|apply heard_same]. assert (F : frame (emit (set_selected i p)) p) by (eapply frame_trans; [apply frame_emit|apply frame_selected]).
    generalize dependent (emit (set_selected i p)). intros q F. cbn zeta. eapply heard_trans; [apply heard_frame; exact F|]. destruct release; [|apply heard_same].
    apply heard_activate. destruct F as (_ & _ & _ & _ & F5 & _). rewrite F5. apply G.
  - apply heard_action.
  - congruence.
  - destruct (visible p) eqn:V; [apply heard_same|]. exists []. fields. rewrite app_nil_r. auto.
  - exists []. fields. rewrite app_nil_r. auto.
  - destruct (take_nth i (tasks p)) as [[t r]|]; [|apply heard_same]. exists []. fields. rewrite app_nil_r. auto.
  - assert (F : frame (fst (drain_updates p)) (set_channel [] p)) by apply frame_apply_all. eapply heard_trans; [|apply heard_frame; exact F]. exists []. fields. rewrite app_nil_r. auto.
Qed.
Lemma taken_turns : forall ls p, fit p -> exists tail, taken ask p ls = events p ++ tail /\ status (visible p) tail = Some (visible (run ask p ls)).
Proof.
  induction ls as [|l ls IH]; intros p F.
  - exists []. cbn. rewrite app_nil_r. auto.
  - cbn [taken run fold_left]. fold (run ask (step ask p l) ls). destruct (IH (step ask p l) (step_fit p l F)) as (tail & T & St).
    assert (D : l = TakeEvents _ \/ l <> TakeEvents _) by (destruct l; try (right; discriminate); left; reflexivity).
    destruct D as [-> |N].
    + exists (taken ask (step ask p (TakeEvents _)) ls). split; [reflexivity|]. rewrite T. cbn [step] in *. cbn [set_events events app] in *. exact St.
    + destruct (heard_step p l (proj1 F) N) as (es & E & Se). exists (es ++ tail). rewrite status_app, Se. split; [|exact St]. rewrite T, E, <- app_assoc.
      destruct l; try reflexivity. exfalso; apply N; reflexivity.
Qed.
(** *** What is run *)
Lemma activate_runs : forall p, good p -> visible p = true -> activate p = p \/
  exists e a, nth_error (entries p) (selected p) = Some e /\ e_disabled e = false /\ e_action e = Some a /\ pending_action (activate p) = Some a /\ visible (activate p) = false /\ events (activate p) = events p ++ [Closed true].
Proof.
  intros p (B & R & S) V. destruct (activate_cases p R) as [H|(e & a & N & D & A & H)]; [auto|]. right. exists e, a. rewrite H.
  destruct (close_alike true (set_pending_action (Some a) p) V) as (Al & _ & _ & Ev & Pa & _). split; [exact N|]. split; [exact D|]. split; [exact A|]. rewrite Pa, Ev. open_alike Al. rewrite A1. auto.
Qed.
Lemma activate_enabled : forall p e, good p -> visible p = true -> nth_error (entries p) (selected p) = Some e -> e_disabled e = false ->
  exists a, e_action e = Some a /\ pending_action (activate p) = Some a /\ visible (activate p) = false /\ events (activate p) = events p ++ [Closed true].
Proof.
  intros p e (B & R & S) V N D. assert (En : enabled e).
  { destruct (b_entries _ _ B) as [F|F]; [rewrite Forall_forall in F; exact (F e (nth_error_In _ _ N))|]. rewrite F in N. destruct (selected p) as [|[|]]; try discriminate. injection N as <-. discriminate. }
  destruct En as [_ [a A]]. exists a. unfold activate. rewrite N, D, R, A.
  destruct (close_alike true (set_pending_action (Some a) p) V) as (Al & _ & _ & Ev & Pa & _). rewrite Pa, Ev. open_alike Al. rewrite A1. auto.
Qed.
Lemma rest_action : forall q p, pending_action (start_search q p) = pending_action p.
Proof. intros q p. apply start_rest. Qed.
Lemma close_action : forall b p, pending_action (close_with b p) = pending_action p.
Proof. intros b p. destruct (visible p) eqn:V; [apply close_alike; exact V|rewrite close_closed by exact V; reflexivity]. Qed.
Lemma step_runs : forall p l, good p -> visible p = true ->
  pending_action (step ask p l) = pending_action p \/ (l = TakeAction _ /\ pending_action (step ask p l) = None) \/
  exists i e a, (((l = Enter _ \/ l = Submit _) /\ listed p = true /\ i = selected p) \/ l = ClickEntry _ i true) /\
    nth_error (entries p) i = Some e /\ e_disabled e = false /\ e_action e = Some a /\ pending_action (step ask p l) = Some a /\ visible (step ask p l) = false /\
    exists hs, events (step ask p l) = events p ++ hs ++ [Closed true] /\ Forall highlight hs.
Proof.
  intros p l G V. destruct l; cbn [step]; rewrite ?V; try (left; reflexivity).
  - left. unfold open_with_focus. rewrite V. reflexivity.
  - left. apply close_action.
  - left. unfold set_providers_. cbn zeta. match goal with |- context [if ?b then _ else _] => destruct b end; [rewrite rest_action|]; reflexivity.
  - destruct (submit_cases p) as [-> |[L ->]]; try apply G; [auto|]. destruct (activate_runs p G V) as [-> |(e & a & H1 & H2 & H3 & H4 & H5 & H6)]; [auto|]. right. right.
    exists (selected p), e, a. repeat (split; [auto|]). exists []. auto.
  - left. apply close_action.
  - destruct (submit_cases p) as [-> |[L ->]]; try apply G; [auto|]. destruct (activate_runs p G V) as [-> |(e & a & H1 & H2 & H3 & H4 & H5 & H6)]; [auto|]. right. right.
    exists (selected p), e, a. repeat (split; [auto|]). exists []. auto.
  - left. apply frame_arrow.
  - left. apply frame_arrow.
  - left. destruct (true && negb (text_eqb q (query p))); [apply rest_action|reflexivity].
  - left. apply close_action.
  - destruct (true && (i <? length (entries p))) eqn:L; [|auto]. apply Nat.ltb_lt in L.
    assert (F : frame (emit (set_selected i p)) p) by (eapply frame_trans; [apply frame_emit|apply frame_selected]).
    assert (A : alike (emit (set_selected i p)) (view p)) by (eapply alike_trans; [apply emit_alike|same]).
    assert (Sl : selected (emit (set_selected i p)) = i) by (rewrite emit_selected; reflexivity).
    generalize dependent (emit (set_selected i p)). intros q F A Sl. cbn zeta. destruct F as (F1 & _ & F3 & _ & _ & _ & F7 & _ & hs & F9 & F10 & _). destruct release; [|left; exact F7].
    assert (Rq : in_range q) by (open_alike A; unfold in_range; rewrite A3, Sl; left; exact L).
    assert (Gq : good q) by (eapply surface_good; eauto). open_alike A.
    destruct (activate_runs q Gq) as [-> |(e & a & H1 & H2 & H3 & H4 & H5 & H6)]; [congruence|auto|]. right. right. exists i, e, a. rewrite Sl, A3 in H1. repeat (split; [auto|]). exists hs. rewrite H6, F9, <- app_assoc. auto.
  - right. left. auto.
  - left. destruct (take_nth i (tasks p)) as [[t r]|]; reflexivity.
  - left. assert (F : frame (fst (drain_updates p)) (set_channel [] p)) by apply frame_apply_all. destruct F as (_ & _ & _ & _ & _ & _ & F7 & _). exact F7.
Qed.
Lemma submit_selected : forall p e, good p -> visible p = true -> listed p = true -> nth_error (entries p) (selected p) = Some e -> e_disabled e = false ->
  exists a, e_action e = Some a /\ pending_action (submit p) = Some a /\ visible (submit p) = false /\ events (submit p) = events p ++ [Closed true].
Proof. intros p e G V L N D. unfold submit. rewrite L. apply activate_enabled; auto. Qed.
(** *** Searches end *)
Lemma refresh_tasks : forall p, tasks (refresh p) = tasks p.
Proof. intros p. pose proof (refresh_alike p) as A. open_alike A. exact A13. Qed.
Lemma sync_tasks : forall p, tasks (sync p) = tasks p.
Proof. intros p. destruct (sync_same p) as [-> | ->]; reflexivity. Qed.
Lemma flush_tasks : forall p, tasks (flush p) = tasks p.
Proof. intros p. unfold flush. destruct (pending p) eqn:E; [reflexivity|]. rewrite refresh_tasks. destruct (clear_current p); reflexivity. Qed.
Lemma timed_flush_tasks : forall p, tasks (timed_flush p) = tasks p.
Proof. intros p. unfold timed_flush. destruct (250 <? now p - last_update p); [|reflexivity]. fields. apply flush_tasks. Qed.
Lemma finish_tasks : forall p, tasks (finish p) = tasks p.
Proof. intros p. unfold finish. cbn zeta. destruct (clear_current p && is_nil (pending p)); [rewrite refresh_tasks|]; rewrite flush_tasks; reflexivity. Qed.
Lemma apply_tasks : forall u p, tasks (fst (apply_update u p)) = tasks p \/ exists g, tasks (fst (apply_update u p)) = tasks p ++ [NoMatchesTimer g true].
Proof.
  intros [g hs|g|g b] p; unfold apply_update; destruct (negb (g =? generation p)); auto.
  - assert (T : tasks (timed_flush (receive hs p)) = tasks p) by (rewrite timed_flush_tasks; reflexivity). generalize dependent (timed_flush (receive hs p)). intros q T. cbn zeta.
    destruct (expected q <=? completed q); [|left; exact T].
    assert (T' : tasks (finish (set_busy false q)) = tasks p) by (rewrite finish_tasks; exact T). generalize dependent (finish (set_busy false q)). intros r T'. cbn [fst].
    destruct (is_nil (entries r) && negb (is_nil (trim (query r)))); [right; exists g; fields; rewrite T'; reflexivity|left; exact T'].
  - left. cbn [fst]. destruct (listed p); reflexivity.
  - left. destruct b; cbn [fst]; rewrite sync_tasks; reflexivity.
Qed.
Lemma apply_all_tasks : forall us p, searches (generation p) (tasks p) = [] -> (forall g x q, ~ In (Search g x q) (tasks p)) -> forall g x q, ~ In (Search g x q) (tasks (fst (apply_all us p))).
Proof.
  induction us as [|u us IH]; intros p S0 H g x q; [apply H|]. cbn. pose proof (apply_tasks u p) as T. pose proof (frame_apply u p) as F. destruct (apply_update u p) as [r b]. cbn [fst] in *.
  assert (Hr : forall g x q, ~ In (Search g x q) (tasks r)).
  { intros g' x' q' I. destruct T as [T|[k T]]; rewrite T in I; [exact (H _ _ _ I)|]. apply in_app_or in I. destruct I as [I|[I|[]]]; [exact (H _ _ _ I)|discriminate]. }
  specialize (IH r). destruct (apply_all us r) as [r' b']. cbn [fst] in *. apply IH; [|exact Hr]. apply searches_none. intros x' q'. apply Hr.
Qed.
Lemma finish_all : forall n p, length (tasks p) = n -> exists q, run ask p (repeat (Finish _ 0) n) = q /\ tasks q = [] /\ frame (set_channel (channel p) q) p /\ query q = query p.
Proof.
  induction n as [|n IH]; intros p L.
  - exists p. split; [reflexivity|]. split; [apply length_zero_iff_nil; exact L|]. split; [framed|reflexivity].
  - destruct (tasks p) as [|t r] eqn:T; [discriminate|]. cbn in L. cbn [repeat run fold_left step]. rewrite T. cbn [take_nth].
    fold (run ask (set_channel (channel p ++ [sends ask t]) (set_tasks r p)) (repeat (Finish P 0) n)).
    destruct (IH (set_channel (channel p ++ [sends ask t]) (set_tasks r p))) as (q & E & T' & F & Q); [fields; lia|]. exists q. split; [exact E|]. split; [exact T'|]. fields_all. split; [|exact Q].
    destruct F as (F1 & F2 & F3 & F4 & F5 & F6 & F7 & F8 & hs & F9 & F10 & F11). unfold frame. fields_all. repeat (split; [first [assumption|reflexivity]|]). exists hs. auto.
Qed.
Lemma settles : forall p, fit p -> visible p = true -> exists n, let q := run ask p (repeat (Finish _ 0) n ++ [Drain _]) in visible q = true /\ query q = query p /\ providers q = providers p /\ answered q.
Proof.
  intros p F V. exists (length (tasks p)). cbn zeta. unfold run. rewrite fold_left_app. cbn [fold_left]. fold (run ask p (repeat (Finish P 0) (length (tasks p)))).
  destruct (finish_all (length (tasks p)) p eq_refl) as (q & -> & T & Fq & Q). cbn [step]. unfold drain_updates.
  pose proof (frame_apply_all (channel q) (set_channel [] q)) as Fa. pose proof (apply_all_tasks (channel q) (set_channel [] q)) as Ta.
  assert (Qa : forall us (r : palette), query (fst (apply_all us r)) = query r).
  { induction us as [|u us IH]; intros r; [reflexivity|]. cbn. assert (H : query (fst (apply_update u r)) = query r).
    { destruct u as [g hs|g|g b]; unfold apply_update; destruct (negb (g =? generation r)); auto.
      - assert (K : query (timed_flush (receive hs r)) = query r).
        { unfold timed_flush. match goal with |- context [if ?b then _ else _] => destruct b end; [|reflexivity]. fields. unfold flush. destruct (pending (receive hs r)); [reflexivity|].
          match goal with |- query (refresh ?x) = _ => pose proof (refresh_alike x) as A end. open_alike A. rewrite A2. destruct (clear_current (receive hs r)); reflexivity. }
        generalize dependent (timed_flush (receive hs r)). intros s K. cbn zeta. destruct (expected s <=? completed s); [|exact K].
        assert (K' : query (finish (set_busy false s)) = query r).
        { unfold finish. cbn zeta. assert (Fl : forall x : palette, query (flush x) = query x). { intros x. unfold flush. destruct (pending x); [reflexivity|]. match goal with |- query (refresh ?y) = _ => pose proof (refresh_alike y) as A end. open_alike A. rewrite A2. destruct (clear_current x); reflexivity. }
          destruct (clear_current (set_busy false s) && is_nil (pending (set_busy false s))); [|rewrite Fl; exact K].
          match goal with |- query (refresh ?y) = _ => pose proof (refresh_alike y) as A end. open_alike A. rewrite A2, Fl. exact K. }
        generalize dependent (finish (set_busy false s)). intros z K'. cbn [fst]. destruct (is_nil (entries z) && negb (is_nil (trim (query z)))); exact K'.
      - cbn [fst]. destruct (listed r); reflexivity.
      - destruct b; cbn [fst]; destruct (sync_same (set_listed true (set_selected 0 (set_entries [no_matches] r)))) as [E|E]; destruct (sync_same (set_listed false r)) as [E'|E']; rewrite ?E, ?E'; reflexivity. }
    specialize (IH (fst (apply_update u r))). destruct (apply_update u r) as [r1 b1]. cbn [fst] in *. destruct (apply_all us r1) as [r2 b2]. cbn [fst] in *. congruence. }
  specialize (Qa (channel q) (set_channel [] q)). generalize dependent (fst (apply_all (channel q) (set_channel [] q))). intros r Fa Ta Qa. fields_all. rewrite T in Ta.
  destruct Fa as (R1 & _ & R3 & R4 & _). destruct Fq as (G1 & _ & _ & G4 & _). fields_all. split; [congruence|]. split; [congruence|]. split; [congruence|]. split; [intros x y; apply Ta; [reflexivity|intros ? ? ? []]|].
  rewrite R3. intros hs [].
Qed.
(** *** Quiet histories *)
Lemma quiet_generation : forall p l, good p -> quiet _ l -> generation (step ask p l) = generation p.
Proof.
  assert (C : forall b p, generation (close_with b p) = generation p).
  { intros b p. destruct (visible p) eqn:V; [|rewrite close_closed by exact V; reflexivity]. destruct (close_alike b p V) as (A & _). open_alike A. exact A10. }
  assert (Ac : forall p, run_on_select p = true -> generation (activate p) = generation p).
  { intros p R. destruct (activate_cases p R) as [-> |(e & a & _ & _ & _ & ->)]; [reflexivity|]. rewrite C. reflexivity. }
  assert (Su : forall p, good p -> generation (submit p) = generation p).
  { intros p (_ & R & S0). destruct (submit_cases p R S0) as [-> |[_ ->]]; [reflexivity|apply Ac; exact R]. }
  intros p l G Ql. destruct l; cbn [quiet] in Ql; try contradiction; cbn [step]; auto; try (destruct (visible p) eqn:V; auto; fail).
  - destruct (visible p); [apply frame_arrow|reflexivity].
  - destruct (visible p); [apply frame_arrow|reflexivity].
  - destruct (visible p && (i <? length (entries p))); [|reflexivity]. assert (F : frame (emit (set_selected i p)) p) by (eapply frame_trans; [apply frame_emit|apply frame_selected]).
    generalize dependent (emit (set_selected i p)). intros q F. cbn zeta. destruct F as (_ & F2 & _ & _ & F5 & _). destruct release; [rewrite Ac; [exact F2|rewrite F5; apply G]|exact F2].
  - destruct (take_nth i (tasks p)) as [[t r]|]; reflexivity.
  - assert (F : frame (fst (drain_updates p)) (set_channel [] p)) by apply frame_apply_all. destruct F as (_ & F2 & _). exact F2.
Qed.
Lemma quiet_run : forall ls p, fit p -> Forall (quiet _) ls -> generation (run ask p ls) = generation p.
Proof.
  induction ls as [|l ls IH]; intros p F H; [reflexivity|]. inversion H as [|? ? H1 H2]. subst. cbn [run fold_left]. fold (run ask (step ask p l) ls).
  rewrite IH; [|apply step_fit; exact F|exact H2]. apply quiet_generation; [apply F|exact H1].
Qed.
(** *** The focus to restore *)
Lemma step_restore : forall p l, good p -> restore_focus (step ask p l) = restore_focus p \/
  (visible p = false /\ ((exists f, l = OpenFocus _ f /\ restore_focus (step ask p l) = Some f) \/ (l = TakeRestore _ /\ restore_focus (step ask p l) = None))).
Proof.
  assert (C : forall b p, restore_focus (close_with b p) = restore_focus p).
  { intros b p. destruct (visible p) eqn:V; [|rewrite close_closed by exact V; reflexivity]. apply close_alike, V. }
  assert (Ac : forall p, run_on_select p = true -> restore_focus (activate p) = restore_focus p).
  { intros p R. destruct (activate_cases p R) as [-> |(e & a & _ & _ & _ & ->)]; [reflexivity|]. rewrite C. reflexivity. }
  assert (Su : forall p, good p -> restore_focus (submit p) = restore_focus p).
  { intros p (_ & R & S0). destruct (submit_cases p R S0) as [-> |[_ ->]]; [reflexivity|apply Ac; exact R]. }
  assert (St : forall q p, restore_focus (start_search q p) = restore_focus p) by (intros q p; apply start_rest).
  intros p l G. destruct l; cbn [step]; auto; try (left; destruct (visible p) eqn:V; auto; fail).
  - unfold open_with_focus. destruct (visible p) eqn:V; [auto|]. right. split; [reflexivity|]. left. exists f. split; [reflexivity|]. rewrite St. unfold enqueue. fields. destruct (rest_sync (set_visible true (set_restore_focus (Some f) p))) as (_ & _ & R & _). rewrite R. reflexivity.
  - left. unfold set_providers_. cbn zeta. match goal with |- context [if ?b then _ else _] => destruct b end; [rewrite St|]; reflexivity.
  - left. destruct (visible p); [apply frame_arrow|reflexivity].
  - left. destruct (visible p); [apply frame_arrow|reflexivity].
  - left. destruct (visible p && negb (text_eqb q (query p))); [apply St|reflexivity].
  - left. destruct (visible p && (i <? length (entries p))); [|reflexivity]. assert (F : frame (emit (set_selected i p)) p) by (eapply frame_trans; [apply frame_emit|apply frame_selected]).
    generalize dependent (emit (set_selected i p)). intros q F. cbn zeta. destruct F as (_ & _ & _ & _ & F5 & F6 & _). destruct release; [rewrite Ac; [exact F6|rewrite F5; apply G]|exact F6].
  - destruct (visible p); auto. 
  - left. destruct (take_nth i (tasks p)) as [[t r]|]; reflexivity.
  - left. assert (F : frame (fst (drain_updates p)) (set_channel [] p)) by apply frame_apply_all. destruct F as (_ & _ & _ & _ & _ & F6 & _). exact F6.
Qed.
End Invariant.
