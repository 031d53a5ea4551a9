From Coq Require Import List Bool Arith ZArith Lia.
From Verif Require Import Loop_Model Loop_Spec.
Import ListNotations.
Arguments l_state {S V}. Arguments l_last_focus {S V}. Arguments l_render {S V}. Arguments l_recompose {S V}. Arguments l_screen {S V}.
Arguments TooltipTick {K E Msg Sz}. Arguments PaletteTick {K E Msg Sz}. Arguments Key {K E Msg Sz}. Arguments Resize {K E Msg Sz}.
Arguments Mouse {K E Msg Sz}. Arguments OtherEvent {K E Msg Sz}. Arguments Message {K E Msg Sz}.

Section Redraw.
Variables (S V K E Msg Sz : Type).
Variables (quit recompose_wanted : S -> bool) (focus_index : S -> nat) (rebuild : S -> S) (refocus : nat -> S -> S) (fallback : S -> option S).
Variables (restyle : S -> S) (draw : S -> V).
Variables (tooltip_tick drain : S -> S * bool) (system_key : K -> bool) (open_palette : K -> S -> S)
          (key_focus : K -> S -> S * bool) (key_rest : K -> S -> S)
          (resize : Sz -> S -> S) (mouse : E -> S -> S) (message : Msg -> S -> S).
Hypothesis restyle_once : forall s, draw (restyle (restyle s)) = draw (restyle s).
Notation top := (top S V focus_index rebuild refocus fallback restyle draw).
Notation branch := (branch S V K E Msg Sz recompose_wanted tooltip_tick drain system_key open_palette key_focus key_rest resize mouse message).
Notation turn := (turn S V K E Msg Sz quit recompose_wanted focus_index rebuild refocus fallback restyle draw tooltip_tick drain system_key open_palette key_focus key_rest resize mouse message).
Notation turns := (turns S V K E Msg Sz quit recompose_wanted focus_index rebuild refocus fallback restyle draw tooltip_tick drain system_key open_palette key_focus key_rest resize mouse message).
Notation handled := (handled tooltip_tick drain system_key open_palette key_focus key_rest resize mouse message).
Notation redraws := (redraws recompose_wanted tooltip_tick drain system_key open_palette key_focus key_rest resize mouse message).
Notation current := (current restyle draw).
Notation picture := (picture restyle draw).
Implicit Types (l : loop S V) (e : event K E Msg Sz).

Definition settled l : Prop := l_render l = false /\ l_recompose l = false /\ l_last_focus l = focus_index (l_state l).

Lemma branch_state : forall l e, l_state (branch l e) = handled (l_state l) e /\ l_screen (branch l e) = l_screen l /\ l_last_focus (branch l e) = l_last_focus l.
Proof.
  intros l e. destruct e; cbn.
  - destruct (tooltip_tick _); auto.
  - destruct (drain _); auto.
  - destruct (system_key k). { destruct (drain _); auto. } destruct (key_focus _ _) as [s m]. cbn. destruct (drain _); auto.
  - auto. - auto. - auto. - destruct (drain _); auto.
Qed.
Lemma branch_flags : forall l e, l_render l = false -> l_recompose l = false ->
  (redraws (l_state l) e <-> l_render (branch l e) = true \/ l_recompose (branch l e) = true).
Proof.
  intros l e R C. destruct e; cbn.
  - destruct (tooltip_tick _) as [s b]. cbn. rewrite R, C. intuition discriminate.
  - destruct (drain _) as [s b]. cbn. rewrite R. cbn. tauto.
  - destruct (system_key k). { destruct (drain _). cbn. tauto. } destruct (key_focus _ _) as [s m]. cbn. destruct (drain _) as [s' b]. cbn. rewrite R. cbn. intuition discriminate.
  - tauto. - tauto. - rewrite R, C. intuition discriminate.
  - destruct (drain _) as [s b]. cbn. rewrite R. cbn. tauto.
Qed.

(** The part before the wait either redraws or leaves everything as it was. *)
Lemma top_cases : forall l, (current (top l) /\ l_render (top l) = false) \/
  (top l = l /\ l_render l = false /\ l_recompose l = false /\ l_last_focus l = focus_index (l_state l) /\ fallback (l_state l) = None).
Proof.
  intros l. unfold top, top_rebuild. destruct (l_recompose l) eqn:C.
  - left. unfold top_focus. cbn [l_state l_last_focus]. rewrite Nat.eqb_refl.
    unfold top_fallback. cbn [l_state]. destruct (fallback _); cbn; unfold current, Loop_Spec.current, picture, Loop_Spec.picture; cbn; rewrite restyle_once; auto.
  - unfold top_focus. destruct (focus_index (l_state l) =? l_last_focus l) eqn:F.
    + apply Nat.eqb_eq in F. unfold top_fallback. destruct (fallback (l_state l)) eqn:B.
      * left. cbn. unfold Loop_Spec.current, Loop_Spec.picture. cbn. rewrite restyle_once. auto.
      * unfold top_render. destruct (l_render l) eqn:R.
        { left. unfold Loop_Spec.current, Loop_Spec.picture. cbn. rewrite restyle_once. auto. }
        { right. auto. }
    + left. unfold top_fallback. cbn [l_state]. destruct (fallback _); cbn; unfold Loop_Spec.current, Loop_Spec.picture; cbn; rewrite restyle_once; auto.
Qed.
Lemma top_flags : forall l, l_render (top l) = false /\ l_recompose (top l) = false.
Proof.
  intros l. unfold top, top_rebuild, top_focus, top_fallback, top_render. destruct (l_recompose l) eqn:C; cbn [l_state l_last_focus].
  - rewrite Nat.eqb_refl. cbn [l_state]. destruct (fallback _); cbn; auto.
  - destruct (focus_index (l_state l) =? l_last_focus l).
    + destruct (fallback _); cbn; [auto|]. destruct (l_render l) eqn:R; cbn; auto.
    + cbn [l_state]. destruct (fallback _); cbn; auto.
Qed.
Lemma turn_redraws : forall l e, l_render l = false -> l_recompose l = false -> quit (handled (l_state l) e) = false ->
  redraws (l_state l) e \/ focus_index (handled (l_state l) e) <> l_last_focus l -> current (turn l e).
Proof.
  intros l e R C Q H. unfold turn. destruct (branch_state l e) as (Bs & Bv & Bf). rewrite Bs, Q.
  destruct (top_cases (branch l e)) as [[H1 _]|(_ & R' & C' & F' & _)]; [exact H1|]. exfalso.
  rewrite (branch_flags l e R C) in H. rewrite Bs, Bf in F'. destruct H as [[H|H]|H]; congruence.
Qed.
Lemma turn_keeps : forall l e, current l -> quit (handled (l_state l) e) = false -> picture (handled (l_state l) e) = picture (l_state l) -> current (turn l e).
Proof.
  intros l e H Q P. unfold turn. destruct (branch_state l e) as (Bs & Bv & Bf). rewrite Bs, Q.
  destruct (top_cases (branch l e)) as [[H1 _]|(E' & _)]; [exact H1|]. rewrite E'. unfold Loop_Spec.current in *. rewrite Bs, Bv, P. exact H.
Qed.
Lemma turn_flags : forall l e, quit (handled (l_state l) e) = false -> l_render (turn l e) = false /\ l_recompose (turn l e) = false.
Proof. intros l e Q. unfold turn. destruct (branch_state l e) as (Bs & _). rewrite Bs, Q. apply top_flags. Qed.
(** A turn without a reason to redraw leaves the screen alone. *)
Lemma turn_ignored : forall l e, l_render l = false -> l_recompose l = false -> ~ redraws (l_state l) e ->
  focus_index (handled (l_state l) e) = l_last_focus l -> fallback (handled (l_state l) e) = None ->
  l_screen (turn l e) = l_screen l /\ l_state (turn l e) = handled (l_state l) e.
Proof.
  intros l e R C N F B. rewrite (branch_flags l e R C) in N. destruct (branch_state l e) as (Bs & Bv & Bf). unfold turn. rewrite Bs.
  destruct (quit _); [auto|]. destruct (l_render (branch l e)) eqn:R'; [tauto|]. destruct (l_recompose (branch l e)) eqn:C'; [tauto|].
  assert (T : top (branch l e) = branch l e).
  { unfold top, top_rebuild. rewrite C'. unfold top_focus. rewrite Bs, Bf, F, Nat.eqb_refl. unfold top_fallback. rewrite Bs, B. unfold top_render. rewrite R'. reflexivity. }
  rewrite T. auto.
Qed.

Notation visible_event := (visible_event S V K E Msg Sz recompose_wanted focus_index restyle draw tooltip_tick drain system_key open_palette key_focus key_rest resize mouse message).
Notation all_visible := (all_visible S V K E Msg Sz quit recompose_wanted focus_index rebuild refocus fallback restyle draw tooltip_tick drain system_key open_palette key_focus key_rest resize mouse message).
Lemma turns_current : forall es l, current l -> l_render l = false -> l_recompose l = false -> all_visible l es ->
  quit (l_state (turns l es)) = true \/ current (turns l es).
Proof.
  induction es as [|e es IH]; intros l H R C A; [right; exact H|]. cbn [Loop_Model.turns]. destruct (quit (l_state l)) eqn:Q; [left; exact Q|].
  cbn in A. destruct A as [Ve A]. destruct (quit (handled (l_state l) e)) eqn:Q'.
  - assert (Et : turn l e = branch l e) by (unfold turn; destruct (branch_state l e) as (-> & _); rewrite Q'; reflexivity).
    assert (Eq : quit (l_state (branch l e)) = true) by (destruct (branch_state l e) as (-> & _); exact Q').
    left. rewrite Et. destruct es as [|e' es]; cbn [Loop_Model.turns]; [exact Eq|]. rewrite Eq. exact Eq.
  - destruct (turn_flags l e Q') as [R' C']. apply IH; auto. destruct Ve as [Ve|[Ve|Ve]].
    + apply turn_redraws; auto. + apply turn_redraws; auto. + apply turn_keeps; auto.
Qed.
Lemma begin_current : forall s blank, quit s = false ->
  current (begin S V quit focus_index rebuild refocus fallback restyle draw s blank) /\
  l_render (begin S V quit focus_index rebuild refocus fallback restyle draw s blank) = false /\
  l_recompose (begin S V quit focus_index rebuild refocus fallback restyle draw s blank) = false.
Proof.
  intros s blank Q. unfold begin. rewrite Q. split; [|apply top_flags].
  match goal with |- context [Loop_Model.top _ _ _ _ _ _ _ _ ?l] => destruct (top_cases l) as [[H _]|(_ & R & _)] end; [exact H|discriminate R].
Qed.
End Redraw.

Section Tooltip.
Variable T : Type.
Variable eqb : T -> T -> bool.
Hypothesis eqb_iff : forall a b, eqb a b = true <-> a = b.
Variable width : T -> Z.
Variable delay : nat.
Arguments Tick {T}. Arguments Moved {T}. Arguments OtherMouse {T}. Arguments Rebuilt {T}.
Arguments p_deadline {T}. Arguments p_text {T}. Arguments p_visible {T}. Arguments p_mouse {T}. Arguments p_shown {T}.
Notation tip_step := (tip_step T eqb width delay).
Notation tip_run := (tip_run T eqb width delay).
Notation place := (place T width).

Lemma same_pos_iff : forall a b, same_pos a b = true <-> a = b.
Proof.
  intros [a1 a2] [b1 b2]. unfold same_pos. cbn. rewrite andb_true_iff, !Z.eqb_eq. split; [intros [-> ->]; reflexivity|intros H; injection H; auto].
Qed.
Lemma run_snoc : forall es e, tip_run (es ++ [e]) = tip_step (tip_run es) e.
Proof. intros es e. unfold tip_run. apply fold_left_app. Qed.

Lemma hidden_inv : forall es, p_visible (tip_run es) = false -> p_shown (tip_run es) = None.
Proof.
  induction es as [|e es IH] using rev_ind; [reflexivity|]. rewrite run_snoc. set (p := tip_run es) in *. destruct e as [n|n pos h| |]; cbn.
  - destruct (p_deadline p), (p_text p), (p_mouse p); auto. destruct (_ <=? _); [discriminate|auto].
  - destruct h as [t|]; cbn.
    + destruct (p_visible p && _) eqn:H; auto.
    + intros _. destruct (p_visible p) eqn:V; auto.
  - destruct (p_visible p) eqn:V; cbn; auto.
  - reflexivity.
Qed.
(** Where the current rest began. *)
Definition rest (es : list (tip_event T)) (t : T) (pos : Z * Z) : Prop :=
  exists before now after, es = before ++ Moved now pos (Some t) :: after /\ Forall (resting pos t) after /\
    ((exists n, In (Tick n) after /\ now + delay <= n) \/
     (p_deadline (tip_run es) = Some (now + delay) /\ p_shown (tip_run es) = None)).
Definition inv (es : list (tip_event T)) : Prop :=
  match p_text (tip_run es) with
  | Some t => exists pos, p_mouse (tip_run es) = Some pos /\ rest es t pos /\ forall x, p_shown (tip_run es) = Some x -> x = (t, place pos t)
  | None => p_shown (tip_run es) = None
  end.
Lemma Forall_snoc : forall A (P : A -> Prop) l x, Forall P l -> P x -> Forall P (l ++ [x]).
Proof. intros. apply Forall_app. auto. Qed.
Lemma inv_all : forall es, inv es.
Proof.
  induction es as [|e es IH] using rev_ind; [reflexivity|]. pose proof (hidden_inv es) as Hid. unfold inv in *. rewrite run_snoc. unfold rest in *. rewrite run_snoc. set (p := tip_run es) in *.
  destruct e as [n|n pos h| |].
  - cbn [Loop_Model.tip_step]. destruct (p_text p) as [t|] eqn:Tx.
    + destruct IH as (pos & Mp & (b & now & a & -> & Fa & D) & Sh).
      rewrite Mp. destruct (p_deadline p) as [d|] eqn:Dl.
      * destruct (d <=? n) eqn:Q.
        { apply Nat.leb_le in Q. cbn [p_text p_mouse p_shown p_deadline]. exists pos. split; [reflexivity|]. split; [|intros x E; injection E as <-; reflexivity].
          exists b, now, (a ++ [Tick n]). split; [rewrite <- app_assoc; reflexivity|]. split; [apply Forall_snoc; [exact Fa|exact I]|]. left.
          destruct D as [(m & Im & Hm)|[Ed _]].
          - exists m. split; [apply in_app_iff; left; exact Im|exact Hm].
          - injection Ed as ->. exists n. split; [apply in_app_iff; right; left; reflexivity|exact Q]. }
        { rewrite Tx. exists pos. split; [exact Mp|]. split; [|exact Sh]. exists b, now, (a ++ [Tick n]). split; [rewrite <- app_assoc; reflexivity|].
          split; [apply Forall_snoc; [exact Fa|exact I]|]. rewrite Dl. destruct D as [(m & Im & Hm)|D]; [left; exists m; split; [apply in_app_iff; left; exact Im|exact Hm]|right; exact D]. }
      * rewrite Tx. exists pos. split; [exact Mp|]. split; [|exact Sh]. exists b, now, (a ++ [Tick n]). split; [rewrite <- app_assoc; reflexivity|].
        split; [apply Forall_snoc; [exact Fa|exact I]|]. rewrite Dl. destruct D as [(m & Im & Hm)|D]; [left; exists m; split; [apply in_app_iff; left; exact Im|exact Hm]|right; exact D].
    + assert (E : (match p_deadline p, (@None T), p_mouse p with Some d, Some t, Some m => if d <=? n then {| p_deadline := None; p_text := Some t; p_visible := true; p_mouse := Some m; p_shown := Some (t, place m t) |} else p | _, _, _ => p end) = p) by (destruct (p_deadline p); reflexivity).
      rewrite E, Tx. exact IH.
  - cbn [Loop_Model.tip_step]. destruct h as [t|].
    + cbn [p_text p_mouse p_shown p_deadline].
      set (pc := match p_mouse p with Some m => negb (same_pos m pos) | None => true end).
      set (tc := match p_text p with Some u => negb (eqb u t) | None => true end).
      exists pos. split; [reflexivity|]. destruct (pc || tc) eqn:Ch.
      * rewrite andb_true_r. cbn [orb]. assert (N : (if p_visible p then None else p_shown p) = None) by (destruct (p_visible p) eqn:V; [reflexivity|apply Hid; reflexivity]).
        rewrite N. split; [|discriminate]. exists es, n, []. split; [reflexivity|]. split; [constructor|]. right. auto.
      * apply orb_false_iff in Ch. destruct Ch as [Pc Tc]. rewrite andb_false_r. cbn [orb].
        unfold pc in Pc. unfold tc in Tc. destruct (p_text p) as [u|]; [|discriminate]. destruct (p_mouse p) as [m|]; [|discriminate].
        apply negb_false_iff in Pc, Tc. apply same_pos_iff in Pc. apply eqb_iff in Tc. subst m u.
        destruct IH as (pos' & Mp & (b & now & a & -> & Fa & D) & Sh). injection Mp as <-. split; [|exact Sh].
        exists b, now, (a ++ [Moved n pos (Some t)]). split; [rewrite <- app_assoc; reflexivity|]. split; [apply Forall_snoc; [exact Fa|cbn; auto]|].
        destruct D as [(m & Im & Hm)|[Ed Es]]; [left; exists m; split; [apply in_app_iff; left; exact Im|exact Hm]|]. right. rewrite Ed. auto.
    + cbn. destruct (p_visible p) eqn:V; [reflexivity|apply Hid; reflexivity].
  - cbn [Loop_Model.tip_step]. destruct (p_visible p) eqn:V.
    + cbn [p_text p_mouse p_shown p_deadline]. destruct (p_text p) as [t|]; [|reflexivity]. destruct IH as (pos & Mp & (b & now & a & -> & Fa & D) & Sh).
      exists pos. split; [exact Mp|]. split; [|discriminate]. exists b, now, (a ++ [OtherMouse]). split; [rewrite <- app_assoc; reflexivity|].
      split; [apply Forall_snoc; [exact Fa|exact I]|]. destruct D as [(m & Im & Hm)|[Ed Es]]; [left; exists m; split; [apply in_app_iff; left; exact Im|exact Hm]|right; auto].
    + destruct (p_text p) as [t|] eqn:Tx; [|exact IH]. destruct IH as (pos & Mp & (b & now & a & -> & Fa & D) & Sh).
      exists pos. split; [exact Mp|]. split; [|exact Sh]. exists b, now, (a ++ [OtherMouse]). split; [rewrite <- app_assoc; reflexivity|].
      split; [apply Forall_snoc; [exact Fa|exact I]|]. destruct D as [(m & Im & Hm)|D]; [left; exists m; split; [apply in_app_iff; left; exact Im|exact Hm]|right; exact D].
  - cbn [Loop_Model.tip_step p_text p_mouse p_shown p_deadline]. destruct (p_text p) as [t|]; [|reflexivity]. destruct IH as (pos & Mp & (b & now & a & -> & Fa & D) & Sh).
    exists pos. split; [exact Mp|]. split; [|discriminate]. exists b, now, (a ++ [Rebuilt]). split; [rewrite <- app_assoc; reflexivity|].
    split; [apply Forall_snoc; [exact Fa|exact I]|]. destruct D as [(m & Im & Hm)|[Ed Es]]; [left; exists m; split; [apply in_app_iff; left; exact Im|exact Hm]|right; auto].
Qed.
Lemma shown_means : forall es t at_, p_shown (tip_run es) = Some (t, at_) ->
  exists before now pos after n, es = before ++ Moved now pos (Some t) :: after /\ Forall (resting pos t) after /\ In (Tick n) after /\ now + delay <= n /\ at_ = place pos t.
Proof.
  intros es t at_ H. pose proof (inv_all es) as I. unfold inv in I. destruct (p_text (tip_run es)) as [u|]; [|congruence].
  destruct I as (pos & _ & (b & now & a & E & Fa & D) & Sh). specialize (Sh _ H). injection Sh as -> ->.
  destruct D as [(n & In_ & Hn)|[_ N]]; [|congruence]. exists b, now, pos, a, n. auto.
Qed.

(** After a rest of the delay the tooltip is there. *)
Lemma rests : forall before now pos t mid n, (p_mouse (tip_run before) <> Some pos \/ p_text (tip_run before) <> Some t) ->
  Forall (fun e => resting pos t e /\ undisturbed e) mid -> now + delay <= n ->
  p_shown (tip_run (before ++ Moved now pos (Some t) :: mid ++ [Tick n])) = Some (t, place pos t).
Proof.
  intros before now pos t mid n New F Hn. rewrite app_comm_cons, app_assoc, run_snoc.
  assert (I : let p := tip_run (before ++ Moved now pos (Some t) :: mid) in p_text p = Some t /\ p_mouse p = Some pos /\
     (p_deadline p = Some (now + delay) \/ p_shown p = Some (t, place pos t))).
  { induction mid as [|e mid IH] using rev_ind.
    - rewrite run_snoc. cbn. set (p := tip_run before) in *. split; [reflexivity|]. split; [reflexivity|]. left.
      assert (C : match p_mouse p with Some m => negb (same_pos m pos) | None => true end || match p_text p with Some u => negb (eqb u t) | None => true end = true).
      { apply orb_true_iff. destruct New as [Nw|Nw]; [left|right].
        - destruct (p_mouse p) as [m|]; [|reflexivity]. apply negb_true_iff. destruct (same_pos m pos) eqn:Q; [|reflexivity]. apply same_pos_iff in Q. congruence.
        - destruct (p_text p) as [u|]; [|reflexivity]. apply negb_true_iff. destruct (eqb u t) eqn:Q; [|reflexivity]. apply eqb_iff in Q. congruence. }
      rewrite C. reflexivity.
    - apply Forall_app in F. destruct F as [F Fe]. inversion Fe as [|? ? [Re Ue] _]; subst. specialize (IH F). cbv zeta in *. rewrite app_comm_cons, app_assoc, run_snoc.
      set (p := tip_run (before ++ Moved now pos (Some t) :: mid)) in *. destruct IH as (Tx & Mp & D). destruct e as [m|m q h| |]; cbn in Re, Ue; try contradiction.
      + cbn. rewrite Tx, Mp. destruct (p_deadline p) as [d|] eqn:Ed; [|rewrite Tx, Mp, Ed; auto]. destruct (d <=? m); cbn; [auto|]. rewrite Tx, Mp, Ed. auto.
      + destruct Re as [-> ->]. cbn. rewrite Tx, Mp. replace (same_pos pos pos) with true by (symmetry; apply same_pos_iff; reflexivity).
        replace (eqb t t) with true by (symmetry; apply eqb_iff; reflexivity). cbn. rewrite andb_false_r. split; [reflexivity|]. split; [reflexivity|].
        destruct (p_deadline p) as [d|]; [exact D|]. destruct D as [D|D]; [discriminate|right; exact D]. }
  cbv zeta in I. set (p := tip_run (before ++ Moved now pos (Some t) :: mid)) in *. destruct I as (Tx & Mp & D). cbn. rewrite Tx, Mp.
  destruct (p_deadline p) as [d|] eqn:Ed.
  - destruct (d <=? n) eqn:Q; [reflexivity|]. destruct D as [D|D]; [|exact D]. injection D as ->. apply Nat.leb_gt in Q. lia.
  - destruct D as [D|D]; [discriminate|exact D].
Qed.
End Tooltip.
