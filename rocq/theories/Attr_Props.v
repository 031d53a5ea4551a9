(** C110: what setting an attribute of a widget does. *)
From Coq Require Import String ZArith List Bool.
From Verif Require Import Text_Model Attr_Model Attr_Spec Attr_Proofs.
From Verif Require Scroll_Model Bars_Model Pointer_Model Pointer_Props.
Import ListNotations.
Open Scope list_scope. Open Scope string_scope.

(** *** After any calls an attribute has the value last set, if the widget keeps it *)

(** Hiding: only a switch, a loading indicator and the palette can be hidden or
    shown; every other widget stays as it was. *)
Theorem C110_visible : forall w cs, built w = true ->
  (In (kind_of w) can_hide ->
   is_visible (run cs w) = or_else (last_of (fun c => match c with SetVisible b => Some b | _ => None end) cs) (is_visible w)) /\
  (~ In (kind_of w) can_hide -> is_visible (run cs w) = is_visible w).
Proof.
  intros w cs B. split; intros K.
  - apply (read_run _ is_visible pick_visible (fun w => In (kind_of w) can_hide)); auto.
    + intros c v B' K'. rewrite (proj2 (step_built c v B')). exact K'.
    + apply visible_one.
  - rewrite (read_run _ is_visible never (fun w => ~ In (kind_of w) can_hide)); auto.
    + rewrite last_never. reflexivity.
    + intros c v B' K'. rewrite (proj2 (step_built c v B')). exact K'.
    + apply visible_none.
Qed.
Theorem C110_disabled : forall w cs, built w = true ->
  (In (kind_of w) can_disable ->
   is_disabled (run cs w) = or_else (last_of (fun c => match c with SetDisabled b => Some b | _ => None end) cs) (is_disabled w)) /\
  (~ In (kind_of w) can_disable -> is_disabled (run cs w) = false).
Proof.
  intros w cs B. split; intros K.
  - apply (read_run _ is_disabled pick_disabled (fun w => In (kind_of w) can_disable)); auto.
    + intros c v B' K'. rewrite (proj2 (step_built c v B')). exact K'.
    + apply disabled_one.
  - destruct (run_built cs w B) as [B' K']. apply disabled_none; auto. rewrite K'. exact K.
Qed.
Theorem C110_loading : forall w cs, built w = true ->
  (In (kind_of w) can_load ->
   is_loading (run cs w) = or_else (last_of (fun c => match c with SetLoading b => Some b | _ => None end) cs) (is_loading w)) /\
  (~ In (kind_of w) can_load -> is_loading (run cs w) = false).
Proof.
  intros w cs B. split; intros K.
  - apply (read_run _ is_loading pick_loading (fun w => In (kind_of w) can_load)); auto.
    + intros c v B' K'. rewrite (proj2 (step_built c v B')). exact K'.
    + apply loading_one.
  - destruct (run_built cs w B) as [B' K']. apply loading_none; auto. rewrite K'. exact K.
Qed.
Theorem C110_titles : forall w cs, built w = true ->
  (In (kind_of w) can_title ->
   border_title (run cs w) = or_else (last_of (fun c => match c with SetTitle t => Some (Some t) | _ => None end) cs) (border_title w) /\
   border_subtitle (run cs w) = or_else (last_of (fun c => match c with SetSubtitle t => Some (Some t) | _ => None end) cs) (border_subtitle w)) /\
  (~ In (kind_of w) can_title -> border_title (run cs w) = None /\ border_subtitle (run cs w) = None).
Proof.
  intros w cs B. split; intros K.
  - split.
    + apply (read_run _ border_title pick_title (fun w => In (kind_of w) can_title)); auto.
      * intros c v B' K'. rewrite (proj2 (step_built c v B')). exact K'.
      * apply title_one.
    + apply (read_run _ border_subtitle pick_sub (fun w => In (kind_of w) can_title)); auto.
      * intros c v B' K'. rewrite (proj2 (step_built c v B')). exact K'.
      * apply sub_one.
  - destruct (run_built cs w B) as [B' K'].
    split; [apply title_none | apply sub_none]; auto; rewrite K'; exact K.
Qed.

Lemma run_boxed cs : forall w, boxed (run cs w) <-> boxed w.
Proof.
  induction cs as [ | c r IH]; intros w; cbn; [tauto | ]. rewrite IH. apply step_boxed.
Qed.
(** Tooltips: only a static text and the icon of the header keep one, and only
    when they are called directly rather than through a box. *)
Theorem C110_tooltip : forall w cs, built w = true ->
  (In (kind_of w) can_tip -> ~ boxed w ->
   tooltip (run cs w) = or_else (last_of (fun c => match c with SetTooltip t => Some t | _ => None end) cs) (tooltip w)) /\
  (~ In (kind_of w) can_tip \/ boxed w -> tooltip (run cs w) = None).
Proof.
  intros w cs B. split; [intros K N | intros K].
  - apply (read_run _ tooltip pick_tip (fun w => In (kind_of w) can_tip /\ ~ boxed w)); auto.
    + intros c v B' [K' N']. rewrite (proj2 (step_built c v B')), step_boxed. auto.
    + apply tip_one.
  - destruct (run_built cs w B) as [B' K']. apply tip_none; auto. rewrite K', run_boxed. exact K.
Qed.
(** The inline style: the last one set and not cleared; one with no declarations
    counts as none. *)
Theorem C110_inline : forall w cs, built w = true ->
  (~ In (kind_of w) no_inline -> ~ boxed w ->
   inline_style (run cs w) =
     or_else (last_of (fun c => match c with
                                | SetInline [] | ClearInline => Some None
                                | SetInline s => Some (Some s)
                                | _ => None end) cs) (inline_style w)) /\
  (In (kind_of w) no_inline \/ boxed w -> inline_style (run cs w) = None).
Proof.
  intros w cs B. split; [intros K N | intros K].
  - apply (read_run _ inline_style _ (fun w => ~ In (kind_of w) no_inline /\ ~ boxed w)); auto.
    + intros c v B' [K' N']. rewrite (proj2 (step_built c v B')), step_boxed. auto.
    + intros c v B' K'. rewrite (inline_one c v B' K'). destruct c as [ | | | | | | [ | ] | | | ]; reflexivity.
  - destruct (run_built cs w B) as [B' K']. apply inline_none; auto. rewrite K', run_boxed. exact K.
Qed.

(** *** What the attributes do *)

(** A hidden, disabled or loading widget cannot be focused. *)
Theorem C110_no_focus : forall w, built w = true ->
  is_visible w = false \/ is_disabled w = true \/ is_loading w = true -> is_focusable w = false.
Proof. exact focus_lem. Qed.
(** Stylesheets see a widget as disabled exactly when it is. *)
Theorem C110_pseudo_class : forall w, built w = true -> looks_disabled w = is_disabled w.
Proof. exact looks_lem. Qed.
(** A widget that can be hidden takes part in the layout exactly when it was last
    shown and its style does not take it out. *)
Theorem C110_layout : forall w cs b gone, built w = true -> In (kind_of w) can_hide ->
  participates gone (step (SetVisible b) (run cs w)) = b && negb gone.
Proof.
  intros w cs b gone B K. destruct (run_built cs w B) as [B' K']. unfold participates.
  rewrite (visible_one (SetVisible b) (run cs w) B'); [reflexivity | ]. rewrite K'. exact K.
Qed.
(** A call that changes what a widget says marks it, with two exceptions: hiding
    a loading indicator and the tooltip of the header's icon. *)
Theorem C110_marked : forall c w, built w = true -> asked (step c w) <> asked w ->
  is_dirty (step c w) = true \/
  (kind_of w = Plain KLoading /\ exists b, c = SetVisible b) \/
  (kind_of w = Made KHeaderIcon /\ exists t, c = SetTooltip t).
Proof. exact dirty_lem. Qed.
(** Marking and cleaning a widget changes its mark and nothing else. *)
Theorem C110_mark : forall w, built w = true -> kind_of w <> Plain KBare ->
  (is_dirty (mark_dirty w) = true /\ asked (mark_dirty w) = asked w) /\
  (is_dirty (mark_clean w) = false /\ asked (mark_clean w) = asked w).
Proof.
  intros w B K. split; [ | exact (clean_lem w B)]. destruct (marked_lem w B) as [D A]. split; auto.
  rewrite D. destruct (kind_of w) as [[] | ]; try reflexivity. now destruct K.
Qed.

(** *** The widgets that ignore the call *)

Definition fresh : fields := Fields true false false None None None [] false.
(** Hiding a button, a text, a label, an input, a list of options or a container
    leaves it visible. *)
Theorem C110_hide_refuted : forall k, In k [KStatic; KPlaceholder; KContainer; KGrid; KItemGrid; KScrollable; KCenter; KMiddle; KRuler; KScreen] ->
  forall f, is_visible (set_visible false (Own k f)) = true.
Proof. intros k K f. cbn in K. intuition (subst; reflexivity). Qed.
Theorem C110_hide_wrapped_refuted : forall k, In k [KLabel; KButton; KInput; KOptions; KVertical; KHorizontal; KVScroll; KHScroll; KHeader] ->
  exists i, built (Wrap k fresh i) = true /\ is_visible (set_visible false (Wrap k fresh i)) = true.
Proof.
  intros k K. cbn in K.
  repeat match type of K with _ \/ _ => destruct K as [<- | K] | False => destruct K end;
  first [exists (Own KStatic fresh); split; reflexivity | exists (Own KContainer fresh); split; reflexivity
        | exists (Own KScrollable fresh); split; reflexivity].
Qed.
(** A list of options cannot be disabled: it hands the call to a container, which
    ignores it; the list stays focusable. *)
Theorem C110_disable_options_refuted : forall f g,
  is_disabled (set_disabled true (Wrap KOptions f (Own KContainer g))) = false /\
  is_focusable (set_disabled true (Wrap KOptions f (Own KContainer g))) = true.
Proof. intros; split; reflexivity. Qed.
(** A row or column drops the title its container would have kept. *)
Theorem C110_title_refuted : forall k t f g, In k [KVertical; KHorizontal] ->
  border_title (set_border_title t (Wrap k f (Own KContainer g))) = None /\
  border_title (set_border_title t (Own KContainer g)) = Some t.
Proof. intros k t f g [<- | [<- | []]]; split; reflexivity. Qed.
(** Through a box, a style or tooltip is lost. *)
Theorem C110_box_refuted : forall s t f g,
  inline_style (set_inline_style s (Wrap KBox f (Own KStatic g))) = None /\
  tooltip (set_tooltip t (Wrap KBox f (Own KStatic g))) = None.
Proof. intros; split; reflexivity. Qed.
(** Hiding a clean loading indicator does not mark it. *)
Theorem C110_loading_mark_refuted : forall f, a_dirty f = false ->
  is_dirty (set_visible false (Own KLoading f)) = false.
Proof. intros f D. exact D. Qed.

(** *** An open palette and the mouse *)

(** The root never learns that a child blocks the mouse: it asks the box around
    it.  With C57_modal's premise false, a click beside an open palette that the
    palette does not answer reaches what lies beneath. *)
Theorem C57_root_blocks_refuted : forall children i, blocks_of children i = false.
Proof. intros. unfold blocks_of. destruct (nth_error children i); reflexivity. Qed.
Theorem C57_open_palette_refuted : exists children p r,
  let root := Pointer_Model.Box (Pointer_Model.KApp (blocks_of children)) p [Pointer_Model.Leaf; Pointer_Model.Leaf] in
  (exists f i, nth_error children 1 = Some (Wrap KPalette f i) /\ built (Wrap KPalette f i) = true /\
     is_visible (Wrap KPalette f i) = true /\ blocks_mouse (Wrap KPalette f i) = true) /\
  In [0%nat] (map fst (fst (Pointer_Model.asked 2 2 (fun _ => false) true root [] r))).
Proof.
  exists [Own KScreen fresh; Wrap KPalette fresh (Own KContainer fresh)],
    (Pointer_Props.pane_of 0 (Pointer_Props.column []) Pointer_Props.plain Scroll_Model.scroll_default),
    (Bars_Model.Area 0 0 10 10).
  cbv zeta. split.
  - exists fresh, (Own KContainer fresh). repeat split.
  - vm_compute. right. left. reflexivity.
Qed.

(** A switch in a box: hidden, disabled and shown again it is disabled, cannot be
    focused and is marked; a label keeps its titles and its style. *)
Example C110_sample :
  let w := Wrap KBox fresh (Own KSwitch fresh) in
  let v := run [SetVisible false; SetDisabled true; MarkClean; SetVisible true; SetTitle (str "x")] w in
  let l := run [SetTitle (str "a"); SetSubtitle (str "b"); SetTitle (str "c"); SetInline [str "tint: red"]; SetLoading true]
               (Wrap KLabel fresh (Own KStatic fresh)) in
  built w = true /\ In (kind_of w) can_hide /\ is_visible v = true /\ is_disabled v = true /\ is_focusable w = true /\
  is_focusable v = false /\ is_dirty v = true /\ border_title v = None /\
  border_title l = Some (str "c") /\ border_subtitle l = Some (str "b") /\ inline_style l = Some [str "tint: red"] /\
  is_loading l = false /\ asked l <> asked (Wrap KLabel fresh (Own KStatic fresh)).
Proof. cbv zeta. repeat match goal with |- _ /\ _ => split end; try reflexivity; [left; reflexivity | discriminate]. Qed.

Print Assumptions C110_visible.
Print Assumptions C110_disabled.
Print Assumptions C110_loading.
Print Assumptions C110_titles.
Print Assumptions C110_tooltip.
Print Assumptions C110_inline.
Print Assumptions C110_no_focus.
Print Assumptions C110_pseudo_class.
Print Assumptions C110_layout.
Print Assumptions C110_marked.
Print Assumptions C110_mark.
Print Assumptions C110_hide_refuted.
Print Assumptions C110_hide_wrapped_refuted.
Print Assumptions C110_disable_options_refuted.
Print Assumptions C110_title_refuted.
Print Assumptions C110_box_refuted.
Print Assumptions C110_loading_mark_refuted.
Print Assumptions C57_root_blocks_refuted.
Print Assumptions C57_open_palette_refuted.
