(** The command palette (crates/textual/src/widget/command_palette.rs) as a
    transition system over its public methods, its spawned tasks and its update
    channel.  [P] are the providers and [ask p q] is what provider [p] answers to the
    trimmed query [q] ([discover] when it is empty, [search] otherwise).
    Simplified: generations do not wrap; scores are integers (any order without NaN); instants are natural
    numbers of milliseconds; [JoinHandle::abort] is not modelled as removing the task
    (an aborted task may be past its last await): a schedule in which the task does
    not run again is one in which its label does not occur; the widgets inside are
    left out, their text and items are those of [query] and [entries] after every
    method; the input line is represented by its text. *)
From Coq Require Import String List Arith Bool ZArith.
From Verif Require Import Text_Model.
Import ListNotations.
Open Scope nat_scope.
Open Scope list_scope.

(** crates/textual/src/command.rs:66-88 [Hit], [DiscoveryHit] (score 0); the prompt is left out *)
Record hit := { h_score : Z; h_text : text; h_action : text }.
(** crates/textual/src/widget/command_palette.rs:720-728 [CommandEntry] *)
Record entry := { e_text : text; e_action : option text; e_score : Z; e_seq : nat; e_disabled : bool }.
(** command_palette.rs:731-754 from_hit, from_discovery; 757-768 no_matches *)
Definition from_hit (h : hit) (seq : nat) : entry :=
  {| e_text := h_text h; e_action := Some (h_action h); e_score := h_score h; e_seq := seq; e_disabled := false |}.
Definition no_matches : entry :=
  {| e_text := str "No matches found"; e_action := None; e_score := 0; e_seq := 0; e_disabled := true |}.
(** crates/textual/src/command.rs:92-109; a highlight carries the index and the entry's text and action *)
Inductive pevent := Opened | Closed (option_selected : bool) | Highlighted (index : nat) (e_text : text) (action : text).
(** command_palette.rs:784-796 *)
Inductive update :=
| ProviderResults (generation : nat) (hits : list hit)
| ShowBusy (generation : nat)
| ShowNoMatches (generation : nat) (query_non_empty : bool).

(** [sort_by] of refresh_results (command_palette.rs:1338-1343): decreasing score, then sequence; stable *)
Definition precedes (a b : entry) : bool := ((e_score b <? e_score a) || ((e_score a =? e_score b) && (Z.of_nat (e_seq a) <=? Z.of_nat (e_seq b))))%Z.
Fixpoint insert_entry (x : entry) (l : list entry) : list entry :=
  match l with
  | [] => [x]
  | y :: r => if precedes x y then x :: l else y :: insert_entry x r
  end.
Definition sort_entries (l : list entry) : list entry := fold_right insert_entry [] l.

(** command_palette.rs:1481-1494 next_enabled_index forward and backward *)
Fixpoint first_enabled (i : nat) (l : list entry) : option nat :=
  match l with
  | [] => None
  | e :: r => if e_disabled e then first_enabled (S i) r else Some i
  end.
Definition next_enabled (l : list entry) (start : nat) : option nat := first_enabled (S start) (skipn (S start) l).
Fixpoint prev_enabled (l : list entry) (start : nat) : option nat :=
  match start with
  | O => None
  | S i => match nth_error l i with
           | Some e => if e_disabled e then prev_enabled l i else Some i
           | None => None
           end
  end.

Section Palette.
Variable P : Type.
Variable ask : P -> text -> list hit.

(** The tasks spawned at command_palette.rs:1131-1164 (search), 1167-1173 (busy timer), 1175-1184 (no-matches timer) *)
Inductive task := Search (generation : nat) (p : P) (q : text) | BusyTimer (generation : nat) | NoMatchesTimer (generation : nat) (query_non_empty : bool).

(** command_palette.rs:799-842 [CommandPalette]; [now], [tasks], [channel]: the clock,
    the spawned tasks that have not finished and the queue of [update_rx] *)
Record palette := Palette {
  visible : bool; query : text; entries : list entry; pending : list entry; selected : nat; listed : bool; busy : bool; clear_current : bool; counter : nat; expected : nat; completed : nat; providers : list P; generation : nat; last_update : nat; pending_action : option text; selected_action : option text; events : list pevent; restore_focus : option nat; run_on_select : bool; now : nat; tasks : list task; channel : list update }.
Definition set_visible (v : bool) (p : palette) : palette :=
  Palette v (query p) (entries p) (pending p) (selected p) (listed p) (busy p) (clear_current p) (counter p) (expected p) (completed p) (providers p) (generation p) (last_update p) (pending_action p) (selected_action p) (events p) (restore_focus p) (run_on_select p) (now p) (tasks p) (channel p).
Definition set_query (v : text) (p : palette) : palette :=
  Palette (visible p) v (entries p) (pending p) (selected p) (listed p) (busy p) (clear_current p) (counter p) (expected p) (completed p) (providers p) (generation p) (last_update p) (pending_action p) (selected_action p) (events p) (restore_focus p) (run_on_select p) (now p) (tasks p) (channel p).
Definition set_entries (v : list entry) (p : palette) : palette :=
  Palette (visible p) (query p) v (pending p) (selected p) (listed p) (busy p) (clear_current p) (counter p) (expected p) (completed p) (providers p) (generation p) (last_update p) (pending_action p) (selected_action p) (events p) (restore_focus p) (run_on_select p) (now p) (tasks p) (channel p).
Definition set_pending (v : list entry) (p : palette) : palette :=
  Palette (visible p) (query p) (entries p) v (selected p) (listed p) (busy p) (clear_current p) (counter p) (expected p) (completed p) (providers p) (generation p) (last_update p) (pending_action p) (selected_action p) (events p) (restore_focus p) (run_on_select p) (now p) (tasks p) (channel p).
Definition set_selected (v : nat) (p : palette) : palette :=
  Palette (visible p) (query p) (entries p) (pending p) v (listed p) (busy p) (clear_current p) (counter p) (expected p) (completed p) (providers p) (generation p) (last_update p) (pending_action p) (selected_action p) (events p) (restore_focus p) (run_on_select p) (now p) (tasks p) (channel p).
Definition set_listed (v : bool) (p : palette) : palette :=
  Palette (visible p) (query p) (entries p) (pending p) (selected p) v (busy p) (clear_current p) (counter p) (expected p) (completed p) (providers p) (generation p) (last_update p) (pending_action p) (selected_action p) (events p) (restore_focus p) (run_on_select p) (now p) (tasks p) (channel p).
Definition set_busy (v : bool) (p : palette) : palette :=
  Palette (visible p) (query p) (entries p) (pending p) (selected p) (listed p) v (clear_current p) (counter p) (expected p) (completed p) (providers p) (generation p) (last_update p) (pending_action p) (selected_action p) (events p) (restore_focus p) (run_on_select p) (now p) (tasks p) (channel p).
Definition set_clear_current (v : bool) (p : palette) : palette :=
  Palette (visible p) (query p) (entries p) (pending p) (selected p) (listed p) (busy p) v (counter p) (expected p) (completed p) (providers p) (generation p) (last_update p) (pending_action p) (selected_action p) (events p) (restore_focus p) (run_on_select p) (now p) (tasks p) (channel p).
Definition set_counter (v : nat) (p : palette) : palette :=
  Palette (visible p) (query p) (entries p) (pending p) (selected p) (listed p) (busy p) (clear_current p) v (expected p) (completed p) (providers p) (generation p) (last_update p) (pending_action p) (selected_action p) (events p) (restore_focus p) (run_on_select p) (now p) (tasks p) (channel p).
Definition set_expected (v : nat) (p : palette) : palette :=
  Palette (visible p) (query p) (entries p) (pending p) (selected p) (listed p) (busy p) (clear_current p) (counter p) v (completed p) (providers p) (generation p) (last_update p) (pending_action p) (selected_action p) (events p) (restore_focus p) (run_on_select p) (now p) (tasks p) (channel p).
Definition set_completed (v : nat) (p : palette) : palette :=
  Palette (visible p) (query p) (entries p) (pending p) (selected p) (listed p) (busy p) (clear_current p) (counter p) (expected p) v (providers p) (generation p) (last_update p) (pending_action p) (selected_action p) (events p) (restore_focus p) (run_on_select p) (now p) (tasks p) (channel p).
Definition set_providers (v : list P) (p : palette) : palette :=
  Palette (visible p) (query p) (entries p) (pending p) (selected p) (listed p) (busy p) (clear_current p) (counter p) (expected p) (completed p) v (generation p) (last_update p) (pending_action p) (selected_action p) (events p) (restore_focus p) (run_on_select p) (now p) (tasks p) (channel p).
Definition set_generation (v : nat) (p : palette) : palette :=
  Palette (visible p) (query p) (entries p) (pending p) (selected p) (listed p) (busy p) (clear_current p) (counter p) (expected p) (completed p) (providers p) v (last_update p) (pending_action p) (selected_action p) (events p) (restore_focus p) (run_on_select p) (now p) (tasks p) (channel p).
Definition set_last_update (v : nat) (p : palette) : palette :=
  Palette (visible p) (query p) (entries p) (pending p) (selected p) (listed p) (busy p) (clear_current p) (counter p) (expected p) (completed p) (providers p) (generation p) v (pending_action p) (selected_action p) (events p) (restore_focus p) (run_on_select p) (now p) (tasks p) (channel p).
Definition set_pending_action (v : option text) (p : palette) : palette :=
  Palette (visible p) (query p) (entries p) (pending p) (selected p) (listed p) (busy p) (clear_current p) (counter p) (expected p) (completed p) (providers p) (generation p) (last_update p) v (selected_action p) (events p) (restore_focus p) (run_on_select p) (now p) (tasks p) (channel p).
Definition set_selected_action (v : option text) (p : palette) : palette :=
  Palette (visible p) (query p) (entries p) (pending p) (selected p) (listed p) (busy p) (clear_current p) (counter p) (expected p) (completed p) (providers p) (generation p) (last_update p) (pending_action p) v (events p) (restore_focus p) (run_on_select p) (now p) (tasks p) (channel p).
Definition set_events (v : list pevent) (p : palette) : palette :=
  Palette (visible p) (query p) (entries p) (pending p) (selected p) (listed p) (busy p) (clear_current p) (counter p) (expected p) (completed p) (providers p) (generation p) (last_update p) (pending_action p) (selected_action p) v (restore_focus p) (run_on_select p) (now p) (tasks p) (channel p).
Definition set_restore_focus (v : option nat) (p : palette) : palette :=
  Palette (visible p) (query p) (entries p) (pending p) (selected p) (listed p) (busy p) (clear_current p) (counter p) (expected p) (completed p) (providers p) (generation p) (last_update p) (pending_action p) (selected_action p) (events p) v (run_on_select p) (now p) (tasks p) (channel p).
Definition set_now (v : nat) (p : palette) : palette :=
  Palette (visible p) (query p) (entries p) (pending p) (selected p) (listed p) (busy p) (clear_current p) (counter p) (expected p) (completed p) (providers p) (generation p) (last_update p) (pending_action p) (selected_action p) (events p) (restore_focus p) (run_on_select p) v (tasks p) (channel p).
Definition set_tasks (v : list task) (p : palette) : palette :=
  Palette (visible p) (query p) (entries p) (pending p) (selected p) (listed p) (busy p) (clear_current p) (counter p) (expected p) (completed p) (providers p) (generation p) (last_update p) (pending_action p) (selected_action p) (events p) (restore_focus p) (run_on_select p) (now p) v (channel p).
Definition set_channel (v : list update) (p : palette) : palette :=
  Palette (visible p) (query p) (entries p) (pending p) (selected p) (listed p) (busy p) (clear_current p) (counter p) (expected p) (completed p) (providers p) (generation p) (last_update p) (pending_action p) (selected_action p) (events p) (restore_focus p) (run_on_select p) (now p) (tasks p) v.

(** command_palette.rs:844-937 new, new_with_run_on_select *)
Definition palette_new (run : bool) : palette :=
  Palette false [] [] [] 0 false false false 0 0 0 [] 0 0 None None [] None run 0 [] [].

Definition enqueue (e : pevent) (p : palette) : palette := set_events (events p ++ [e]) p.
(** command_palette.rs:1381-1410 sync_visibility_classes *)
Definition sync (p : palette) : palette := if visible p && listed p then p else set_busy false p.
(** command_palette.rs:1439-1456 emit_highlight *)
Definition emit (p : palette) : palette :=
  if negb (visible p) || negb (listed p) then p
  else match nth_error (entries p) (selected p) with
       | None => p
       | Some e =>
           if e_disabled e then p
           else enqueue (Highlighted (selected p) (e_text e) (match e_action e with Some a => a | None => [] end)) p
       end.
(** command_palette.rs:1458-1479 normalize_selection *)
Definition normalize (p : palette) : palette :=
  match entries p with
  | [] => set_selected 0 p
  | _ =>
      let p := if length (entries p) <=? selected p then set_selected (length (entries p) - 1) p else p in
      match nth_error (entries p) (selected p) with
      | Some e =>
          if e_disabled e then
            match next_enabled (entries p) (selected p) with
            | Some i => set_selected i p
            | None => match prev_enabled (entries p) (selected p) with Some i => set_selected i p | None => p end
            end
          else p
      | None => p
      end
  end.
(** command_palette.rs:1337-1379 refresh_results *)
Definition refresh (p : palette) : palette :=
  let p := set_entries (sort_entries (entries p)) p in
  let p := match entries p with
           | [] => set_listed false (set_selected 0 p)
           | _ =>
               let p := normalize (set_selected (Nat.min (selected p) (length (entries p) - 1)) p) in
               set_listed (match selected_action p with None => true | _ => false end) p
           end in
  let p := sync p in
  if listed p then emit p else p.
(** command_palette.rs:1056-1076 cancel_search *)
Definition cancel_search (p : palette) : palette := set_completed 0 (set_expected 0 (set_busy false p)).
(** command_palette.rs:1037-1054 close_with_selected *)
Definition close_with (option_selected : bool) (p : palette) : palette :=
  if visible p then
    let p := cancel_search (set_visible false p) in
    let p := set_busy false (set_listed false (set_pending [] (set_entries [] (set_selected_action None (set_selected 0 (set_query [] p)))))) in
    enqueue (Closed option_selected) (refresh (sync p))
  else p.
(** command_palette.rs:1101-1119: the first part of start_search *)
Definition begin_search (q : text) (p : palette) : palette :=
  let p := cancel_search p in
  let p := set_pending [] (set_selected_action None (set_selected 0 (set_query q p))) in
  let p := set_expected (length (providers p)) (set_completed 0 (set_counter 0 p)) in
  let p := set_generation (S (generation p)) (set_last_update (now p) (set_clear_current true p)) in
  sync (if visible p then set_listed true p else p).
(** command_palette.rs:1100-1165 start_search *)
Definition start_search (q : text) (p : palette) : palette :=
  let p := begin_search q p in
  let g := generation p in
  let value := trim (query p) in
  if expected p =? 0 then
    let p := refresh (sync (set_listed false (set_entries [] p))) in
    if is_nil value then p else set_tasks (tasks p ++ [NoMatchesTimer g true]) p
  else
    set_tasks (tasks p ++ BusyTimer g :: map (fun x => Search g x value) (providers p)) p.
(** command_palette.rs:939-957 open, open_with_focus *)
Definition open_with_focus (f : nat) (p : palette) : palette :=
  if visible p then p
  else start_search [] (enqueue Opened (sync (set_visible true (set_restore_focus (Some f) p)))).
(** command_palette.rs:975-986 set_providers *)
Definition set_providers_ (ps : list P) (p : palette) : palette :=
  let p := set_expected (length ps) (set_providers ps (cancel_search p)) in
  if visible p then start_search (query p) p else p.
(** command_palette.rs:1517-1545 activate_selected *)
Definition activate (p : palette) : palette :=
  match nth_error (entries p) (selected p) with
  | None => p
  | Some e =>
      if e_disabled e then p
      else if run_on_select p then
        match e_action e with
        | Some a => close_with true (set_pending_action (Some a) p)
        | None => p
        end
      else
        let p := set_listed false (set_selected_action (e_action e) (set_query (e_text e) p)) in
        refresh (sync (set_selected 0 (set_pending [] (set_entries [] p))))
  end.
(** command_palette.rs:988-995 submit *)
Definition submit (p : palette) : palette :=
  if listed p then activate p
  else match selected_action p with
       | Some a => close_with true (set_pending_action (Some a) (set_selected_action None p))
       | None => p
       end.
(** command_palette.rs:1496-1515 move_selection *)
Definition move_selection (forward : bool) (p : palette) : palette :=
  match (if forward then next_enabled (entries p) (selected p) else prev_enabled (entries p) (selected p)) with
  | Some i => emit (set_selected i p)
  | None => p
  end.
(** command_palette.rs:1732-1751 Up and Down *)
Definition arrow (forward : bool) (p : palette) : palette :=
  if negb (listed p) && negb (is_nil (entries p)) then emit (sync (set_listed true p))
  else move_selection forward p.
(** command_palette.rs:1278-1288 flush_pending_entries *)
Definition flush (p : palette) : palette :=
  match pending p with
  | [] => p
  | _ =>
      let p := if clear_current p then set_clear_current false (set_entries [] p) else p in
      refresh (set_pending [] (set_entries (entries p ++ pending p) p))
  end.
(** command_palette.rs:1194-1212: entries numbered as they arrive *)
Fixpoint numbered (n : nat) (hs : list hit) : list entry :=
  match hs with [] => [] | h :: r => from_hit h (S n) :: numbered (S n) r end.
(** command_palette.rs:1192-1212: an answer is counted and its hits wait *)
Definition receive (hs : list hit) (p : palette) : palette :=
  set_counter (counter p + length hs) (set_pending (pending p ++ numbered (counter p) hs) (set_completed (S (completed p)) p)).
(** command_palette.rs:1214-1218: they are listed if the last time was more than 250 ms ago *)
Definition timed_flush (p : palette) : palette :=
  if 250 <? now p - last_update p then set_last_update (now p) (flush p) else p.
(** command_palette.rs:1225-1234: after the last answer, before the no-matches timer *)
Definition finish (p : palette) : palette :=
  let cleared := clear_current p && is_nil (pending p) in
  let p := flush (if cleared then set_clear_current false (set_entries [] p) else p) in
  if cleared then refresh p else p.
(** command_palette.rs:1186-1276 apply_update: the palette and whether something changed *)
Definition apply_update (u : update) (p : palette) : palette * bool :=
  match u with
  | ProviderResults g hs =>
      if negb (g =? generation p) then (p, false)
      else
        let p := timed_flush (receive hs p) in
        if expected p <=? completed p then
          let p := finish (set_busy false p) in
          (if is_nil (entries p) && negb (is_nil (trim (query p)))
           then set_tasks (tasks p ++ [NoMatchesTimer g true]) p else p, true)
        else (p, true)
  | ShowBusy g =>
      if negb (g =? generation p) then (p, false)
      else (if listed p then set_busy true p else p, true)
  | ShowNoMatches g ne =>
      if negb (g =? generation p) then (p, false)
      else if ne then (sync (set_listed true (set_selected 0 (set_entries [no_matches] p))), true)
      else (sync (set_listed false p), true)
  end.
(** command_palette.rs:1009-1020 drain_updates *)
Fixpoint apply_all (us : list update) (p : palette) : palette * bool :=
  match us with
  | [] => (p, false)
  | u :: r => let (p, a) := apply_update u p in let (p, b) := apply_all r p in (p, a || b)
  end.
Definition drain_updates (p : palette) : palette * bool := apply_all (channel p) (set_channel [] p).

(** What a finished task sends. *)
Definition sends (t : task) : update :=
  match t with
  | Search g p q => ProviderResults g (ask p q)
  | BusyTimer g => ShowBusy g
  | NoMatchesTimer g ne => ShowNoMatches g ne
  end.
Fixpoint take_nth {A} (i : nat) (l : list A) : option (A * list A) :=
  match l, i with
  | [], _ => None
  | x :: r, O => Some (x, r)
  | x :: r, S j => option_map (fun '(y, q) => (y, x :: q)) (take_nth j r)
  end.

(** Everything that can happen to a palette. *)
Inductive label :=
| OpenFocus (f : nat) | Close | SetProviders (ps : list P) | Submit
| Esc | Enter | Up | Down                                  (* command_palette.rs:1724-1768 on_event *)
| Edit (q : text)                                          (* 1752-1764: a key that leaves the text [q] in the input *)
| ClickOutside                                             (* 1770-1787 *)
| ClickEntry (i : nat) (release : bool)                    (* 1547-1567: the list reports entry [i] *)
| TakeAction | TakeEvents | TakeRestore                    (* 1816-1818, 1005-1007, 997-1003 *)
| Advance (ms : nat)
| Finish (i : nat)                                         (* a task sends its update and ends *)
| Drain.                                                   (* drain_updates *)

Definition step (p : palette) (l : label) : palette :=
  match l with
  | OpenFocus f => open_with_focus f p
  | Close => close_with false p
  | SetProviders ps => set_providers_ ps p
  | Submit => submit p
  | Esc => if visible p then close_with false p else p
  | Enter => if visible p then submit p else p
  | Up => if visible p then arrow false p else p
  | Down => if visible p then arrow true p else p
  | Edit q => if visible p && negb (text_eqb q (query p)) then start_search q p else p
  | ClickOutside => if visible p then close_with false p else p
  | ClickEntry i release =>
      if visible p && (i <? length (entries p)) then
        let p := emit (set_selected i p) in if release then activate p else p
      else p
  | TakeAction => set_pending_action None p
  | TakeEvents => set_events [] p
  | TakeRestore => if visible p then p else set_restore_focus None p
  | Advance ms => set_now (now p + ms) p
  | Finish i =>
      match take_nth i (tasks p) with
      | Some (t, r) => set_channel (channel p ++ [sends t]) (set_tasks r p)
      | None => p
      end
  | Drain => fst (drain_updates p)
  end.
Definition run (p : palette) (ls : list label) : palette := fold_left step ls p.
End Palette.
