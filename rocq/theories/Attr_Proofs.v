(** Proofs about attributes. *)
From Coq Require Import ZArith List Bool.
From Verif Require Import Text_Model Attr_Model Attr_Spec.
Import ListNotations.

(** A built widget is one of its kind, or a box around a built one. *)
Definition inside (k : wrapper) (i : widget) : Prop :=
  match k with
  | KLabel | KButton | KInput | KTooltip | KHeaderTitle | KHeaderClock | KHeaderIcon | KSearchIcon =>
      exists f, i = Own KStatic f
  | KOptions | KVertical | KHorizontal | KHeader | KPalette => exists f, i = Own KContainer f
  | KVScroll | KHScroll => exists f, i = Own KScrollable f
  | KCommandInput => exists f g, i = Wrap KInput f (Own KStatic g)
  | KCommandList => exists f g, i = Wrap KOptions f (Own KContainer g)
  | KBox => built i = true
  end.
Lemma built_inside k f i : built (Wrap k f i) = true -> inside k i.
Proof.
  destruct k; cbn; intros B; try exact B;
  destruct i as [[] | [] ? [[] | ]]; try discriminate; eauto.
Qed.

Ltac open B :=
  apply built_inside in B; cbn in B;
  repeat match type of B with exists _, _ => destruct B as [? B] end; subst.

Ltac each w :=
  let k := fresh "k" in let f := fresh "f" in let i := fresh "i" in let IH := fresh "IH" in let B := fresh "B" in
  induction w as [k f | k f i IH]; intros B; destruct k;
  [ .. | try (open B) | try (open B) | try (open B) | try (open B) | try (open B) | try (open B) | try (open B) | try (open B)
    | try (open B) | try (open B) | try (open B) | try (open B) | try (open B) | try (open B) | try (open B) | try (open B) | try (open B) | cbn in B; specialize (IH B) ].

Ltac cond := repeat match goal with |- context [if ?b then _ else _] => destruct b end.

Lemma step_built c w : built w = true -> built (step c w) = true /\ kind_of (step c w) = kind_of w.
Proof.
  revert w. intros w. each w; destruct c; cbn in *; auto; cond; cbn; auto.
Qed.
Lemma step_boxed c w : boxed (step c w) <-> boxed w.
Proof.
  destruct w as [[] f | [] f i]; destruct c; cbn; try tauto; cond; cbn; tauto.
Qed.
Lemma run_built cs : forall w, built w = true -> built (run cs w) = true /\ kind_of (run cs w) = kind_of w.
Proof.
  induction cs as [ | c r IH]; intros w B; cbn; auto.
  destruct (step_built c w B) as [B' K]. destruct (IH _ B') as [B'' K']. split; congruence.
Qed.

(** Reading an attribute after calls. *)
Section Read.
  Variable A : Type.
  Variable get : widget -> A.
  Variable pick : call -> option A.
  Variable ok : widget -> Prop.
  Variable ok_step : forall c w, built w = true -> ok w -> ok (step c w).
  Hypothesis one : forall c w, built w = true -> ok w -> get (step c w) = or_else (pick c) (get w).
  Lemma read_run : forall cs w, built w = true -> ok w ->
    get (run cs w) = or_else (last_of pick cs) (get w).
  Proof.
    induction cs as [ | c r IH]; intros w B K; cbn; auto.
    destruct (step_built c w B) as [B' _]. rewrite (IH _ B' (ok_step c w B K)).
    destruct (last_of pick r); cbn; auto.
  Qed.
End Read.

Definition pick_visible (c : call) := match c with SetVisible b => Some b | _ => None end.
Definition pick_disabled (c : call) := match c with SetDisabled b => Some b | _ => None end.
Definition pick_loading (c : call) := match c with SetLoading b => Some b | _ => None end.
Definition pick_title (c : call) := match c with SetTitle t => Some (Some t) | _ => None end.
Definition pick_sub (c : call) := match c with SetSubtitle t => Some (Some t) | _ => None end.
Definition pick_tip (c : call) := match c with SetTooltip t => Some t | _ => None end.
Definition pick_inline (c : call) :=
  match c with
  | SetInline s => Some (match s with [] => None | _ => Some s end)
  | ClearInline => Some None
  | _ => None
  end.
Definition never {A} (c : call) : option A := None.
Lemma last_never {A} cs : @last_of A never cs = None.
Proof. induction cs as [ | c r IH]; cbn; auto. rewrite IH. reflexivity. Qed.

Ltac into H := cbn in H; repeat (destruct H as [H | H]; [try discriminate H | ]); try (now destruct H).
Ltac out H := exfalso; apply H; cbn; tauto.
Ltac eqbs := repeat match goal with
  | |- context [eqb ?a ?b] => destruct (eqb a b) eqn:?E end;
  repeat match goal with H : eqb _ _ = true |- _ => apply eqb_prop in H end.

Lemma visible_one c w : built w = true -> In (kind_of w) can_hide ->
  is_visible (step c w) = or_else (pick_visible c) (is_visible w).
Proof.
  each w; intros K; try (into K; fail); destruct c; cbn in *; auto; eqbs; cbn; auto.
Qed.
Lemma visible_none c w : built w = true -> ~ In (kind_of w) can_hide -> is_visible (step c w) = is_visible w.
Proof.
  each w; intros K; try (out K; fail); destruct c; cbn in *; auto; eqbs; cbn; auto.
Qed.
Lemma disabled_one c w : built w = true -> In (kind_of w) can_disable ->
  is_disabled (step c w) = or_else (pick_disabled c) (is_disabled w).
Proof.
  each w; intros K; try (into K; fail); destruct c; cbn in *; auto; eqbs; cbn; auto.
Qed.
Lemma disabled_none w : built w = true -> ~ In (kind_of w) can_disable -> is_disabled w = false.
Proof.
  each w; intros K; try (out K; fail); cbn in *; auto.
Qed.
Lemma loading_one c w : built w = true -> In (kind_of w) can_load ->
  is_loading (step c w) = or_else (pick_loading c) (is_loading w).
Proof.
  each w; intros K; try (into K; fail); destruct c; cbn in *; auto; eqbs; cbn; auto.
Qed.
Lemma loading_none w : built w = true -> ~ In (kind_of w) can_load -> is_loading w = false.
Proof.
  each w; intros K; try (out K; fail); cbn in *; auto.
Qed.
Lemma title_one c w : built w = true -> In (kind_of w) can_title ->
  border_title (step c w) = or_else (pick_title c) (border_title w).
Proof.
  each w; intros K; try (into K; fail); destruct c; cbn in *; auto; eqbs; cbn; auto.
Qed.
Lemma title_none w : built w = true -> ~ In (kind_of w) can_title -> border_title w = None.
Proof.
  each w; intros K; try (out K; fail); cbn in *; auto.
Qed.
Lemma sub_one c w : built w = true -> In (kind_of w) can_title ->
  border_subtitle (step c w) = or_else (pick_sub c) (border_subtitle w).
Proof.
  each w; intros K; try (into K; fail); destruct c; cbn in *; auto; eqbs; cbn; auto.
Qed.
Lemma sub_none w : built w = true -> ~ In (kind_of w) can_title -> border_subtitle w = None.
Proof.
  each w; intros K; try (out K; fail); cbn in *; auto.
Qed.
Lemma tip_one c w : built w = true -> In (kind_of w) can_tip /\ ~ boxed w ->
  tooltip (step c w) = or_else (pick_tip c) (tooltip w).
Proof.
  each w; intros [K N]; try (into K; fail); try (exfalso; apply N; exact I); destruct c; cbn in *; auto; eqbs; cbn; auto.
Qed.
Lemma tip_none w : built w = true -> ~ In (kind_of w) can_tip \/ boxed w -> tooltip w = None.
Proof.
  each w; intros [K | K]; try (out K; fail); cbn in *; auto; destruct K.
Qed.
Lemma inline_one c w : built w = true -> ~ In (kind_of w) no_inline /\ ~ boxed w ->
  inline_style (step c w) = or_else (pick_inline c) (inline_style w).
Proof.
  each w; intros [K N]; try (out K; fail); try (exfalso; apply N; exact I); destruct c as [ | | | | | | [ | ] | | | ];
    cbn in *; auto; eqbs; cbn; auto.
Qed.
Lemma inline_none w : built w = true -> In (kind_of w) no_inline \/ boxed w -> inline_style w = None.
Proof.
  each w; intros [K | K]; try (into K; fail); cbn in *; auto; destruct K.
Qed.

Lemma focus_lem w : built w = true ->
  is_visible w = false \/ is_disabled w = true \/ is_loading w = true -> is_focusable w = false.
Proof.
  each w; intros K; try (apply IH; exact K); destruct K as [K | [K | K]]; cbn in K |- *;
  try discriminate K; rewrite ?K, ?andb_false_r; auto.
Qed.
Lemma looks_lem w : built w = true -> looks_disabled w = is_disabled w.
Proof. each w; cbn in *; auto. Qed.

Definition marks (c : call) : bool := match c with MarkClean | MarkDirty => false | _ => true end.
Lemma dirty_lem c w : built w = true -> asked (step c w) <> asked w ->
  is_dirty (step c w) = true \/
  (kind_of w = Plain KLoading /\ exists b, c = SetVisible b) \/
  (kind_of w = Made KHeaderIcon /\ exists t, c = SetTooltip t).
Proof.
  each w; destruct c; intros N; cbn in *; auto; try (exfalso; apply N; reflexivity); eauto;
  unfold clear_inline_style in *;
  try (cond; cbn in *; auto; try (exfalso; apply N; reflexivity); fail);
  try (rewrite ?orb_true_r; auto; fail);
  try (apply IH; intros E; apply N; unfold asked in *; cbn in *; congruence).
Qed.
Lemma clean_lem w : built w = true -> is_dirty (mark_clean w) = false /\ asked (mark_clean w) = asked w.
Proof.
  each w; cbn in *; auto; unfold asked in *; cbn in *; split; try apply IH; destruct IH as [_ IH]; congruence.
Qed.
Lemma marked_lem w : built w = true -> is_dirty (mark_dirty w) = negb (match kind_of w with Plain KBare => true | _ => false end)
  /\ asked (mark_dirty w) = asked w.
Proof.
  each w; cbn in *; auto; unfold asked in *; cbn in *; split; try apply IH; destruct IH as [_ IH]; congruence.
Qed.
