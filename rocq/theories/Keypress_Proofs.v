(** Lemmas about keys, the palette and the focus. *)
From Coq Require Import String ZArith List Bool Arith Lia.
From Verif Require Import Text_Model Tree_Model Tree_Spec Tree_Proofs Keys_Proofs.
From Verif Require Palette_Model Palette_Proofs Palette_Props Keys_Model.
From Verif Require Import Keypress_Model Keypress_Spec.
Import ListNotations.
Notation length := List.length.
Open Scope nat_scope.
Open Scope list_scope.

(** ** The screen *)
Lemma clear_clear : forall w, clear_focus (clear_focus w) = clear_focus w.
Proof.
  induction w as [d|d ks IH] using widget_ind'; [reflexivity|]. cbn [clear_focus]. f_equal. rewrite map_map. apply map_ext_in. intros k K.
  rewrite Forall_forall in IH. destruct (shown k) eqn:E; [|rewrite E; reflexivity].
  assert (shown (clear_focus k) = true) as -> by (rewrite <- E; destruct k; reflexivity). apply IH, K.
Qed.
Fixpoint seen (p : list nat) (w : widget) : Prop :=
  match p with
  | [] => True
  | i :: r => match get_child w i with Some k => shown k = true /\ seen r k | None => False end
  end.
Lemma seen_kid : forall d ks j k, nothing_hidden (Box d ks) -> nth_error ks j = Some k -> shown k = true /\ nothing_hidden k.
Proof.
  intros d ks j k H N. split.
  - apply (H ([j], k)). rewrite walk_box. right. apply (kids_walk_intro everything ks 0 j k ([], k)); auto. destruct k; left; reflexivity.
  - intros q Hq. apply (H (j :: fst q, snd q)). rewrite walk_box. right. apply (kids_walk_intro everything ks 0 j k q); auto.
Qed.
Lemma seen_all : forall p w, nothing_hidden w -> follow w p <> None -> seen p w.
Proof.
  induction p as [|i p IH]; intros w H F; [exact I|]. cbn [seen follow] in *. destruct w as [d|d ks]; cbn [get_child] in *; [congruence|].
  destruct (nth_error ks i) as [k|] eqn:E; [|congruence]. destruct (seen_kid d ks i k H E). split; auto.
Qed.
Lemma shown_update : forall b p w, shown (update_at p (set_focused b) w) = shown w.
Proof. intros b p w. rewrite <- unfocused_shown, update_shape, unfocused_shown. reflexivity. Qed.
Lemma clear_update : forall b p w d, seen p w -> follow w p = Some (Leaf d) -> clear_focus (update_at p (set_focused b) w) = clear_focus w.
Proof.
  induction p as [|i p IH]; intros w d S F.
  - cbn in F. injection F as ->. reflexivity.
  - destruct w as [d0|d0 ks]; cbn [seen follow get_child] in *; [contradiction|]. rewrite update_box. cbn [clear_focus]. f_equal.
    revert i S F. induction ks as [|k r IHr]; intros [|i] S F; cbn [nth_error upd_kids map] in *; try contradiction.
    + destruct S as [S1 S2]. rewrite shown_update, S1. f_equal. eapply IH; eauto.
    + f_equal. apply (IHr i S F).
Qed.
Lemma order_alike : forall w w', unfocused w = unfocused w' -> focus_order w = focus_order w'.
Proof. intros w w' E. rewrite <- (order_unfocused w), E, order_unfocused. reflexivity. Qed.
Lemma all_alike : forall w w', unfocused w = unfocused w' -> all_order w = all_order w'.
Proof. intros w w' E. rewrite <- (all_unfocused w), E, all_unfocused. reflexivity. Qed.
Lemma shown_alike : forall w w', unfocused w = unfocused w' -> shown w = shown w'.
Proof. intros w w' E. rewrite <- (unfocused_shown w), E, unfocused_shown. reflexivity. Qed.
Lemma find_path_order : forall w n, find_path w n = match nth_error (all_order w) n with
  | Some p => inl p | None => inr (n - length (all_order w)) end.
Proof.
  intros w n. rewrite find_path_spec. unfold all_order. rewrite nth_error_map, map_length. destruct (nth_error (items everything w) n); reflexivity.
Qed.
Lemma id_unfocused : forall w, w_id (data (unfocused w)) = w_id (data w). Proof. destruct w; reflexivity. Qed.

Section Screen.
Variable scr : widget.
Hypothesis U : usable scr.
Let n := length (focus_order scr).
Definition only (p : list nat) : widget := update_at p (set_focused true) (clear_focus scr).
Lemma alike_clear : forall w, clear_focus w = clear_focus scr -> unfocused w = unfocused scr.
Proof. intros w E. rewrite <- (clear_shape w), E. apply clear_shape. Qed.
Lemma n_pos : 0 < n.
Proof. unfold n. pose proof (u_some _ U). destruct (focus_order scr); [congruence|cbn; lia]. Qed.
Lemma order_leaf : forall p, In p (focus_order scr) -> exists d, follow (clear_focus scr) p = Some (Leaf d) /\ w_can d = true.
Proof.
  intros p H. assert (H' : In p (focus_order (clear_focus scr))) by (rewrite (order_alike _ scr (clear_shape scr)); exact H).
  unfold focus_order, focus_items in H'. apply in_map_iff in H'. destruct H' as (q & <- & H'). destruct (item_follow _ _ _ H') as (d & D & _ & C). eauto.
Qed.
Lemma hidden_clear : nothing_hidden (clear_focus scr).
Proof. apply (hidden_unfocused scr); [symmetry; apply clear_shape|apply U]. Qed.
Lemma clear_only : forall p, In p (focus_order scr) -> clear_focus (only p) = clear_focus scr.
Proof.
  intros p H. unfold only. destruct (order_leaf p H) as (d & D & _). rewrite (clear_update true p (clear_focus scr) d).
  - apply clear_clear.
  - apply seen_all; [apply hidden_clear|congruence].
  - exact D.
Qed.
Lemma only_focus_is : forall p, In p (focus_order scr) -> focus_is (only p) p.
Proof.
  intros p H q. unfold only. destruct (order_leaf p H) as (d & D & _). rewrite (has_focus_update _ _ _ _ D). split; [|auto].
  intros [->|K]; auto. exfalso. eapply clear_focus_none; [|exact K]. unfold visible_paths. rewrite walk_nothing_hidden by (apply (u_open _ U)).
  destruct K as (d' & F & _). rewrite <- (walk_nothing_hidden scr) by (apply (u_open _ U)). change (In q (visible_paths scr)).
  rewrite <- visible_unfocused, <- clear_shape, visible_unfocused. unfold visible_paths. rewrite walk_nothing_hidden by apply hidden_clear.
  apply walk_everything in F. apply (in_map fst) in F. exact F.
Qed.
Lemma clear_nowhere : focus_nowhere (clear_focus scr).
Proof.
  intros q K. eapply clear_focus_none; [|exact K]. destruct K as (d' & F & _).
  rewrite <- visible_unfocused, <- clear_shape, visible_unfocused. unfold visible_paths. rewrite walk_nothing_hidden by apply hidden_clear.
  apply walk_everything in F. apply (in_map fst) in F. exact F.
Qed.
Lemma count_alike : forall w, clear_focus w = clear_focus scr -> count_focusable w = n.
Proof. intros w E. rewrite count_order, (order_alike w scr (alike_clear w E)). reflexivity. Qed.
Lemma shown_ok : forall w, clear_focus w = clear_focus scr -> shown w = true.
Proof. intros w E. rewrite (shown_alike w scr (alike_clear w E)). apply U. Qed.
Lemma focus_nth_ok : forall i p, nth_error (focus_order scr) i = Some p -> focus_nth i (clear_focus scr) = (only p, true).
Proof.
  intros i p H. rewrite focus_nth_spec. rewrite <- (order_alike _ scr (clear_shape scr)) in H. unfold focus_order, focus_items in H. rewrite nth_error_map in H.
  fold (items shown (clear_focus scr)) in H. destruct (nth_error (items shown (clear_focus scr)) i) as [q|]; [|discriminate]. injection H as <-. reflexivity.
Qed.
Lemma find_path_ok : forall w i, clear_focus w = clear_focus scr -> find_path w i = match nth_error (focus_order scr) i with
  | Some p => inl p | None => inr (i - n) end.
Proof.
  intros w i E. rewrite find_path_order, (all_alike w scr (alike_clear w E)), (all_is_order scr (u_open _ U)). reflexivity.
Qed.
Lemma find_palette : forall w, clear_focus w = clear_focus scr -> find_index_by_id palette_id w 0 = inr n.
Proof.
  intros w E. rewrite find_index_spec, (shown_ok w E). pose proof (first_with_spec _ (fun q => has_id palette_id (data (snd q))) (items shown w) 0) as H.
  destruct (first_with (fun q : list nat * widget => has_id palette_id (data (snd q))) (items shown w) 0) as [k|k].
  - exfalso. destruct H as (q & _ & N & I & _). rewrite Nat.sub_0_r in N. apply nth_error_In in N. apply has_id_iff in I.
    unfold items in N. apply filter_In in N. destruct N as [N1 N2].
    apply (in_map (fun q => (fst q, unfocused (snd q)))) in N1. rewrite <- walk_unfocused in N1 by apply unfocused_shown. rewrite (alike_clear w E), walk_unfocused in N1 by apply unfocused_shown.
    apply in_map_iff in N1. destruct N1 as (r & R & N1). injection R as R1 R2. apply (u_id _ U r).
    + unfold focus_items. apply filter_In. split; [exact N1|]. rewrite <- unfocused_focusable, R2, unfocused_focusable. exact N2.
    + rewrite <- id_unfocused, R2, id_unfocused. exact I.
  - destruct H as [-> _]. f_equal. rewrite <- count_items. apply count_alike, E.
Qed.
End Screen.

(** ** The palette *)
Section PaletteSteps.
Variable P : Type.
Variable ask : P -> text -> list Palette_Model.hit.
Notation pstep := (Palette_Model.step P ask).
Notation vis := (Palette_Model.visible P).
Notation back := (Palette_Model.restore_focus P).
Notation fit := (Palette_Proofs.fit P ask).
Definition opener (l : Palette_Model.label P) : Prop := match l with Palette_Model.OpenFocus _ _ => True | _ => False end.
Definition closer (l : Palette_Model.label P) : Prop :=
  match l with
  | Palette_Model.Close _ | Palette_Model.Esc _ | Palette_Model.ClickOutside _ | Palette_Model.Enter _ | Palette_Model.Submit _ | Palette_Model.ClickEntry _ _ _ => True
  | _ => False
  end.
Lemma close_closed_vis : forall b p, vis p = false -> vis (Palette_Model.close_with P b p) = false.
Proof. intros b p V. rewrite Palette_Proofs.close_closed by exact V. exact V. Qed.
Lemma activate_closed_vis : forall p, fit p -> vis p = false -> vis (Palette_Model.activate P p) = false.
Proof.
  intros p [(_ & R & _) _] V. destruct (Palette_Proofs.activate_cases P p R) as [-> |(e & a & _ & _ & _ & ->)]; [exact V|]. apply close_closed_vis. exact V.
Qed.
Lemma submit_closed_vis : forall p, fit p -> vis p = false -> vis (Palette_Model.submit P p) = false.
Proof.
  intros p F V. destruct (Palette_Proofs.submit_cases P p) as [-> |[_ ->]]; try apply F; [exact V|]. apply activate_closed_vis; assumption.
Qed.
Lemma step_stays_closed : forall p l, fit p -> vis p = false -> ~ opener l -> vis (pstep p l) = false.
Proof.
  intros p l F V O. destruct l; cbn [Palette_Model.step]; rewrite ?V; try exact V; try reflexivity.
  - exfalso. apply O. exact I.
  - apply close_closed_vis, V.
  - rewrite Palette_Props.providers_visible. exact V.
  - apply submit_closed_vis; assumption.
  - destruct (Palette_Model.take_nth i (Palette_Model.tasks P p)) as [[t r]|]; exact V.
  - rewrite Palette_Props.drain_visible. exact V.
Qed.
Lemma step_stays_open : forall p l, vis p = true -> ~ closer l -> vis (pstep p l) = true.
Proof.
  intros p l V C. destruct (vis (pstep p l)) eqn:E; [reflexivity|]. exfalso. apply C. pose proof (Palette_Props.step_visible P ask p l V E) as H. destruct l; exact H.
Qed.
Lemma step_keeps_restore : forall p l, fit p -> ~ opener l -> l <> Palette_Model.TakeRestore P -> back (pstep p l) = back p.
Proof.
  intros p l F O T. destruct (Palette_Proofs.step_restore P ask p l (proj1 F)) as [E|[_ [(f & -> & _)|[-> _]]]]; [exact E| |congruence]. exfalso. apply O. exact I.
Qed.
Lemma open_step : forall p f, fit p -> vis (pstep p (Palette_Model.OpenFocus P f)) = true /\
  back (pstep p (Palette_Model.OpenFocus P f)) = if vis p then back p else Some f.
Proof.
  intros p f F. cbn [Palette_Model.step]. destruct (vis p) eqn:V.
  - rewrite Palette_Props.open_stays by exact V. auto.
  - unfold Palette_Model.open_with_focus. rewrite V.
    match goal with |- context [Palette_Model.start_search P ?q ?x] => destruct (Palette_Proofs.start_rest P q x) as (R1 & _ & R3 & _) end. rewrite R1, R3.
    destruct (Palette_Proofs.rest_sync P (Palette_Model.set_visible P true (Palette_Model.set_restore_focus P (Some f) p))) as (S1 & _ & S3 & _).
    unfold Palette_Model.enqueue. cbn [Palette_Model.set_events Palette_Model.visible Palette_Model.restore_focus]. rewrite S1, S3. auto.
Qed.
End PaletteSteps.

(** ** The focus of the whole tree *)
Lemma quits_iff : forall a, quits a = true <-> a = str "app.quit" \/ a = str "quit".
Proof. intros a. unfold quits, named. cbn [existsb]. rewrite !orb_true_iff, !text_eqb_iff. intuition discriminate. Qed.
Lemma opens_iff : forall a, opens a = true <-> a = str "app.command_palette" \/ a = str "command_palette".
Proof. intros a. unfold opens, named. cbn [existsb]. rewrite !orb_true_iff, !text_eqb_iff. intuition discriminate. Qed.
Section States.
Variables (W Msg P : Type).
Variable ask : P -> text -> list Palette_Model.hit.
Variable system : Keys_Model.event -> bool.
Variable widget_key : list nat -> Keys_Model.code -> W -> W * option Msg.
Variable screen_key : Keys_Model.code -> W -> W * option Msg.
Variable deliver : list nat -> Msg -> W -> W.
Variable typed : Keys_Model.code -> Palette_Model.palette P -> text.
Variable asked : W -> list text * W.
Variable on_action : text -> W -> bool * W * option text.
Variable on_key : Keys_Model.code -> W -> W * bool.
Variable command_providers : W -> list P.
Notation state := (state W P).
Notation act := (act ask on_action command_providers).
Notation drain := (drain ask).
Notation dispatch := (dispatch ask widget_key screen_key deliver typed).
Notation actions := (actions ask asked on_action command_providers).
Notation give_back := (give_back ask).
Notation tell_app := (tell_app on_key).
Notation press := (press ask system widget_key screen_key deliver typed asked on_action on_key command_providers).
Notation click := (click ask asked on_action command_providers).
Notation handle := (handle ask system widget_key screen_key deliver typed asked on_action on_key command_providers).
Notation turn := (turn ask system widget_key screen_key deliver typed asked on_action on_key command_providers).
Notation turns := (turns ask system widget_key screen_key deliver typed asked on_action on_key command_providers).
Notation back s := (Palette_Model.restore_focus P (s_palette s)).
Notation fit := (Palette_Proofs.fit P ask).

(** *** What each part hears *)
Lemma heard_clear : forall s : state, s_heard (clear s) = s_heard s. Proof. reflexivity. Qed.
Lemma heard_focus_at : forall i (s : state), s_heard (fst (focus_at i s)) = s_heard s /\ s_palette (fst (focus_at i s)) = s_palette s /\
  s_world (fst (focus_at i s)) = s_world s /\ s_quit (fst (focus_at i s)) = s_quit s.
Proof.
  intros i s. unfold focus_at. destruct (i <? screen_count s); [destruct (focus_nth i (s_screen s)); auto|]. destruct (is_open s && _); auto.
Qed.
Definition beside (s s' : state) : Prop := s_heard s' = s_heard s /\ s_palette s' = s_palette s /\ s_world s' = s_world s /\ s_quit s' = s_quit s.
Lemma beside_refocus : forall i (s : state), beside s (refocus i s).
Proof. intros i s. unfold refocus. destruct (_ && _); repeat split. Qed.
Lemma beside_index : forall i (s : state), beside s (fst (focus_index i s)).
Proof.
  intros i s. unfold focus_index. destruct (count s =? 0); [repeat split|]. destruct (count s <=? i); [repeat split|].
  pose proof (heard_focus_at i (clear s)) as H. destruct (focus_at i (clear s)) as [s1 b]. cbn [fst] in H. destruct H as (H1 & H2 & H3 & H4).
  destruct b; cbn [fst]; [destruct (beside_refocus i s1) as (R1 & R2 & R3 & R4); unfold beside; rewrite R1, R2, R3, R4|unfold beside]; rewrite H1, H2, H3, H4; repeat split.
Qed.
Lemma beside_id : forall id (s : state), beside s (focus_id id s).
Proof.
  intros id s. unfold focus_id. destruct (find_index_by_id id (s_screen s) 0); [apply beside_index|]. destruct (is_open s && _); [apply beside_index|repeat split].
Qed.
Lemma beside_next : forall s : state, beside s (next s).
Proof. intros s. unfold next. destruct (count s =? 0); [repeat split|apply beside_index]. Qed.
Lemma beside_previous : forall s : state, beside s (previous s).
Proof. intros s. unfold previous. destruct (count s =? 0); [repeat split|apply beside_index]. Qed.
Lemma beside_move : forall k (s : state), beside s (move k s).
Proof. intros k s. unfold move. destruct (is_open s); [repeat split|]. destruct k; try apply beside_next; try apply beside_previous; repeat split. Qed.
Lemma beside_settle : forall s : state, beside s (settle s).
Proof. intros s. unfold settle. destruct (can_focus s) as [[|]|]; try apply beside_index; repeat split. Qed.
Lemma beside_open : forall s s' : state, beside s s' -> is_open s' = is_open s.
Proof. intros s s' (_ & E & _). unfold is_open. rewrite E. reflexivity. Qed.

(** an action: one more thing heard; the application ends exactly by the quit action *)
Lemma act_hears : forall b (s : state) a, let h := fst (fst (on_action a (s_world s))) in
  s_heard (act b s a) = s_heard s ++ [Act b a h] /\ s_quit (act b s a) = s_quit s || (negb h && quits a).
Proof.
  intros b s a. unfold act. destruct (on_action a (s_world s)) as [[h w] f]. cbn [fst].
  set (s1 := hear (Act b a h) (with_world w s)).
  set (s2 := match f with Some id => focus_id id s1 | None => s1 end).
  assert (B : beside s1 s2) by (unfold s2; destruct f; [apply beside_id|repeat split]).
  destruct B as (B1 & _ & _ & B4).
  assert (H1 : s_heard s2 = s_heard s ++ [Act b a h]) by (rewrite B1; reflexivity).
  assert (H4 : s_quit s2 = s_quit s) by (rewrite B4; reflexivity).
  clearbody s2. destruct h; cbn [negb andb]; [rewrite orb_false_r; auto|].
  destruct (quits a); [cbn; rewrite H1, H4; auto|]. rewrite orb_false_r.
  destruct (submits a); [cbn; auto|]. destruct (opens a); [|auto].
  match goal with |- context [focus_id palette_id ?x] => destruct (beside_id palette_id x) as (C1 & _ & _ & C4) end. rewrite C1, C4. cbn. auto.
Qed.

Lemma acts_hear : forall l (s : state), exists hs, s_heard (fold_left (act false) l s) = s_heard s ++ hs /\ Forall asked_for hs /\
  (s_quit (fold_left (act false) l s) = true <-> s_quit s = true \/ Exists ends hs).
Proof.
  induction l as [|a l IH]; intros s.
  - exists []. rewrite app_nil_r. split; [reflexivity|]. split; [constructor|]. cbn. split; [auto|]. intros [H|H]; [exact H|inversion H].
  - cbn [fold_left]. destruct (IH (act false s a)) as (hs & H1 & H2 & H3). destruct (act_hears false s a) as [A1 A2]. cbn zeta in A1, A2.
    exists (Act false a (fst (fst (on_action a (s_world s)))) :: hs). rewrite H1, A1, <- app_assoc. split; [reflexivity|]. split; [constructor; [exact I|exact H2]|].
    rewrite H3, A2, orb_true_iff, andb_true_iff, Exists_cons, quits_iff. cbn [ends]. destruct (fst (fst (on_action a (s_world s)))); cbn [negb]; intuition discriminate.
Qed.
Lemma actions_hear : forall s : state, exists hs, s_heard (actions s) = s_heard s ++ hs /\ Forall asked_for hs /\
  (s_quit (actions s) = true <-> s_quit s = true \/ Exists ends hs).
Proof.
  intros s. unfold actions. destruct (asked (s_world s)) as [l w].
  match goal with |- context [fold_left _ ?l ?x] => destruct (acts_hear l x) as (hs & H1 & H2 & H3) end. exists hs. split; [exact H1|]. split; [exact H2|exact H3].
Qed.
Lemma give_back_beside : forall s : state, s_heard (give_back s) = s_heard s /\ s_quit (give_back s) = s_quit s.
Proof.
  intros s. unfold give_back. destruct (is_open s); [auto|]. destruct (back s); [|auto].
  match goal with |- context [focus_index ?i ?x] => destruct (beside_index i x) as (B1 & _ & _ & B4) end. rewrite B1, B4. auto.
Qed.
(** whom a key is dispatched to *)
Definition dispatched (k : Keys_Model.code) (s : state) : list hearing :=
  match s_path s with
  | 0 :: p => match follow (s_screen s) p with Some _ => [ToWidget p k] | None => [] end
  | [] => [ToAll k]
  | [2] => [ToPalette k]
  | [2; 0; 0; 1] => [ToLine k]
  | _ => []
  end.
Ltac paths p := destruct p as [|[|[|[|?]]] [|[|?] [|[|?] [|[|[|?]] [|? ?]]]]].
Lemma dispatch_hears : forall k (s : state), s_heard (dispatch k s) = s_heard s ++ dispatched k s /\ s_quit (dispatch k s) = s_quit s.
Proof.
  intros k s. unfold dispatch, dispatched. paths (s_path s); try destruct (follow (s_screen s) _); try destruct (is_open s); cbn; rewrite ?app_nil_r; auto.
Qed.
Lemma dispatched_ends : forall k s, Exists ends (dispatched k s) <-> False.
Proof.
  intros k s. split; [|contradiction]. unfold dispatched. intros H.
  assert (K : Forall (fun h => ~ ends h) (match s_path s with
    | 0 :: p => match follow (s_screen s) p with Some _ => [ToWidget p k] | None => [] end
    | [] => [ToAll k] | [2] => [ToPalette k] | [2; 0; 0; 1] => [ToLine k] | _ => [] end)).
  { paths (s_path s); try destruct (follow (s_screen s) _); repeat constructor; intros []. }
  rewrite Forall_forall in K. apply Exists_exists in H. destruct H as (h & H1 & H2). exact (K h H1 H2).
Qed.
Lemma press_hears : forall e (s : state), system e = false -> let k := Keys_Model.k_code e in
  exists acts, s_heard (press e s) = s_heard s ++ dispatched k (move k s) ++ (if is_open s then [] else [ToApp k]) ++ acts /\ Forall asked_for acts.
Proof.
  intros e s Se k. unfold press. rewrite Se. fold k.
  destruct (actions_hear (tell_app (is_open s) k (dispatch k (move k s)))) as (hs & H1 & H2 & _). exists hs. split; [|exact H2].
  cbn [drain with_palette s_heard]. destruct (give_back_beside (actions (tell_app (is_open s) k (dispatch k (move k s))))) as [G _]. rewrite G, H1.
  destruct (dispatch_hears k (move k s)) as [D _]. destruct (beside_move k s) as (M & _).
  unfold tell_app. destruct (is_open s); [|destruct (on_key k _) as [w q]; cbn [or_quit with_world hear s_heard]]; rewrite D, M, <- ?app_assoc; reflexivity.
Qed.
Lemma press_system : forall e (s : state), system e = true -> exists h, s_heard (press e s) = s_heard s ++ [Act true (str "app.command_palette") h].
Proof.
  intros e s Se. unfold press. rewrite Se. exists (fst (fst (on_action (str "app.command_palette") (s_world s)))). cbn [drain with_palette s_heard].
  apply (act_hears true s (str "app.command_palette")).
Qed.

(** *** The end of the application *)
Hypothesis Default : forall k w, on_key k w = default_on_key k w.
Lemma default_ends : forall k (w : W), snd (default_on_key k w) = true <-> ends (ToApp k).
Proof.
  intros k w. unfold default_on_key. cbn [snd ends]. rewrite orb_true_iff. destruct k; cbn; rewrite ?Z.eqb_eq; intuition (try discriminate; try congruence).
Qed.
Definition told (s : state) : Prop := s_quit s = true <-> Exists ends (s_heard s).
Lemma told_press : forall e s, told s -> told (press e s).
Proof.
  intros e s T. unfold press. destruct (system e).
  - unfold told. cbn [drain with_palette s_heard s_quit]. destruct (act_hears true s (str "app.command_palette")) as [A1 A2]. cbn zeta in *. rewrite A1, A2, Exists_app, orb_true_iff, Exists_cons, Exists_nil.
    unfold told in T. rewrite T, andb_true_iff. cbn [ends]. assert (Q : quits (str "app.command_palette") = false) by reflexivity. rewrite Q.
    destruct (fst (fst (on_action (str "app.command_palette") (s_world s)))); intuition discriminate.
  - set (k := Keys_Model.k_code e). unfold told. cbn [drain with_palette s_heard s_quit].
    destruct (give_back_beside (actions (tell_app (is_open s) k (dispatch k (move k s))))) as [G1 G2]. rewrite G1, G2.
    destruct (actions_hear (tell_app (is_open s) k (dispatch k (move k s)))) as (hs & H1 & _ & H3). rewrite H1, H3, Exists_app.
    assert (T2 : s_quit (tell_app (is_open s) k (dispatch k (move k s))) = true <-> Exists ends (s_heard (tell_app (is_open s) k (dispatch k (move k s))))); [|rewrite T2; reflexivity].
    assert (T1 : s_quit (dispatch k (move k s)) = true <-> Exists ends (s_heard (dispatch k (move k s)))).
    { destruct (dispatch_hears k (move k s)) as [D1 D2]. destruct (beside_move k s) as (M1 & _ & _ & M4). rewrite D1, D2, M1, M4, Exists_app, dispatched_ends. unfold told in T. tauto. }
    unfold tell_app. destruct (is_open s); [exact T1|]. rewrite Default. pose proof (default_ends k (s_world (dispatch k (move k s)))) as E.
    destruct (default_on_key k (s_world (dispatch k (move k s)))) as [w q]. cbn [snd] in E. cbn [or_quit with_world hear s_heard s_quit].
    rewrite orb_true_iff, Exists_app, Exists_cons, Exists_nil, T1, E. tauto.
Qed.
Lemma told_click : forall l s, told s -> told (click l s).
Proof.
  intros l s T. unfold click. destruct (is_open s); [|exact T]. unfold told. cbn [drain with_palette s_heard s_quit].
  match goal with |- context [give_back (actions ?x)] => destruct (give_back_beside (actions x)) as [G1 G2]; destruct (actions_hear x) as (hs & H1 & _ & H3) end.
  rewrite G1, G2, H1, H3, Exists_app. cbn [with_palette s_quit s_heard]. unfold told in T. tauto.
Qed.
Lemma told_turn : forall e s, told s -> told (turn s e).
Proof.
  intros e s T. unfold turn. destruct (s_quit s); [exact T|].
  assert (H : told (handle s e)).
  { destruct e; cbn [handle]; try exact T; [apply told_press|apply told_click|apply told_click]; exact T. }
  destruct (s_quit (handle s e)); [exact H|]. destruct (beside_settle (handle s e)) as (B1 & _ & _ & B4). unfold told. rewrite B1, B4. exact H.
Qed.
Lemma told_turns : forall es s, told s -> told (turns s es).
Proof. induction es as [|e es IH]; intros s T; [exact T|]. cbn [turns fold_left]. apply IH, told_turn, T. Qed.
Lemma told_start : forall screen w, told (start (P := P) screen w).
Proof.
  intros screen w. unfold told, start.
  match goal with |- context [settle ?x] => destruct (beside_settle x) as (B1 & _ & _ & B4) end. rewrite B1, B4.
  match goal with |- context [refocus 0 ?x] => destruct (beside_refocus 0 x) as (C1 & _ & _ & C4) end. rewrite C1, C4.
  match goal with |- context [focus_at 0 ?x] => destruct (heard_focus_at 0 x) as (D1 & _ & _ & D4) end. rewrite D1, D4.
  cbn. split; [discriminate|]. intros H. inversion H.
Qed.
End States.
