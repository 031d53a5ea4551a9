(** C119: what operations on all the widgets matched by a query do. *)
From Coq Require Import String ZArith List Bool Arith Lia.
From Verif Require Import Text_Model Tree_Model Classes_Model Classes_Proofs Name_Model Bulk_Model Bulk_Spec Bulk_Proofs.
Import ListNotations.
Open Scope nat_scope.
Open Scope list_scope.

Section User.
(** whatever the program's own widgets do when asked *)
Variable user : op -> state -> state.

Section Query.
Variables (m : text) (sel : ssel) (filter : node -> bool).

(** Each operation but marking is done exactly once to every widget that the query
    reaches, that has the type and id asked for, and that passes the filter as it was
    before the operation; nothing else changes anywhere in the tree, and no widget is
    added, lost, moved or renamed. *)
Theorem C119_exact : forall o n p, o <> MarkDirty ->
  match at_place n p, at_place (query user m sel filter o n) p with
  | Some x, Some y => n_kind y = n_kind x /\ n_id y = n_id x /\ length (n_kids y) = length (n_kids x) /\
      (reached n p -> named m sel x = true -> filter x = true -> n_state y = one user o (n_kind x) (n_state x)) /\
      (~ reached n p \/ named m sel x = false \/ filter x = false -> n_state y = n_state x)
  | None, None => True
  | _, _ => False
  end.
Proof. intros o n p No. exact (query_exact user m sel filter o No p n). Qed.

(** A widget that keeps classes has the class afterwards, or not, as asked, and its other
    classes as before. *)
Theorem C119_classes : forall o n p x, class_op o -> at_place n p = Some x -> reached n p -> named m sel x = true -> filter x = true ->
  In (n_kind x) keepers -> NoDup (s_classes (n_state x)) ->
  exists y, at_place (query user m sel filter o n) p = Some y /\
    (forall d, In d (s_classes (n_state y)) <-> asks o d (In d (s_classes (n_state x)))) /\
    s_visible (n_state y) = s_visible (n_state x) /\ s_disabled (n_state y) = s_disabled (n_state x).
Proof.
  intros o n p x Co A R Nm F K ND.
  destruct (query_at user m sel filter o) with (n := n) (p := p) (x := x) as (y & Ey & _ & _ & Es); auto; [intros ->; exact Co|].
  exists y. split; [exact Ey|]. rewrite Es. apply one_class; assumption.
Qed.

(** A switch, a loading indicator or the command palette is shown or hidden as asked. *)
Theorem C119_hide : forall b n p x, at_place n p = Some x -> reached n p -> named m sel x = true -> filter x = true ->
  In (n_kind x) hideable ->
  exists y, at_place (query user m sel filter (SetVisible b) n) p = Some y /\
    s_visible (n_state y) = b /\ s_classes (n_state y) = s_classes (n_state x) /\ s_disabled (n_state y) = s_disabled (n_state x).
Proof.
  intros b n p x A R Nm F K.
  destruct (query_at user m sel filter (SetVisible b)) with (n := n) (p := p) (x := x) as (y & Ey & _ & _ & Es); auto; [discriminate|].
  exists y. split; [exact Ey|]. rewrite Es. destruct (n_state x) as [c v d t]. cbn in K.
  repeat destruct K as [<- | K]; try destruct K; cbn; auto; destruct v, b; cbn; auto.
Qed.

(** A static, a label, a button, an input, a switch or a part of the header or the
    palette made of them is disabled or enabled as asked. *)
Theorem C119_disable : forall b n p x, at_place n p = Some x -> reached n p -> named m sel x = true -> filter x = true ->
  In (n_kind x) disableable ->
  exists y, at_place (query user m sel filter (SetDisabled b) n) p = Some y /\
    s_disabled (n_state y) = b /\ s_classes (n_state y) = s_classes (n_state x) /\ s_visible (n_state y) = s_visible (n_state x).
Proof.
  intros b n p x A R Nm F K.
  destruct (query_at user m sel filter (SetDisabled b)) with (n := n) (p := p) (x := x) as (y & Ey & _ & _ & Es); auto; [discriminate|].
  exists y. split; [exact Ey|]. rewrite Es. destruct (n_state x) as [c v d t]. cbn in K.
  repeat destruct K as [<- | K]; try destruct K; cbn; auto; destruct d, b; cbn; auto.
Qed.

(** The other widgets of the library silently ignore the operation: for example only three
    kinds can be hidden, and a vertical container cannot be given a class. *)
Theorem C119_ignored_refuted : forall o n p x, at_place n p = Some x -> o <> MarkDirty -> ~ is_user (n_kind x) -> ~ takers o (n_kind x) ->
  exists y, at_place (query user m sel filter o n) p = Some y /\ n_state y = n_state x.
Proof.
  intros o n p x A No U T. pose proof (query_exact user m sel filter o No p n) as Q. rewrite A in Q.
  destruct (at_place (query user m sel filter o n) p) as [y|]; [|destruct Q]. exists y. split; [reflexivity|].
  destruct Q as (_ & _ & _ & Q1 & Q2).
  destruct (Bool.bool_dec (named m sel x) true) as [Nm | Nm].
  - destruct (Bool.bool_dec (filter x) true) as [F | F].
    + pose proof (one_ignored user o (n_kind x) (n_state x) U T) as E.
      destruct (reached_dec p n) as [R | R]; [rewrite (Q1 R Nm F); exact E|apply Q2; auto].
    + apply Q2. right. right. now apply not_true_is_false.
  - apply Q2. right. left. now apply not_true_is_false.
Qed.

(** A widget of the library that is to be drawn again still is afterwards. *)
Theorem C119_still_dirty : forall o n p x, at_place n p = Some x -> o <> MarkDirty -> ~ is_user (n_kind x) -> s_dirty (n_state x) = true ->
  exists y, at_place (query user m sel filter o n) p = Some y /\ s_dirty (n_state y) = true.
Proof.
  intros o n p x A No U D. pose proof (query_exact user m sel filter o No p n) as Q. rewrite A in Q.
  destruct (at_place (query user m sel filter o n) p) as [y|]; [|destruct Q]. exists y. split; [reflexivity|].
  destruct Q as (_ & _ & _ & Q1 & Q2).
  destruct (named m sel x) eqn:Nm; [|rewrite Q2 by auto; exact D].
  destruct (filter x) eqn:F; [|rewrite Q2 by auto; exact D].
  destruct (reached_dec p n) as [R | R]; [rewrite (Q1 R eq_refl eq_refl); apply one_keeps_dirty; assumption|rewrite Q2 by auto; exact D].
Qed.

(** Whatever changes is drawn again: a widget of the library whose classes, visibility or
    disabled state have changed is dirty, unless it is one that wraps a static and is given a
    class, or a loading indicator asked to hide or show itself. *)
Theorem C119_redraw : forall o n p x y, o <> MarkDirty -> at_place n p = Some x -> at_place (query user m sel filter o n) p = Some y ->
  ~ is_user (n_kind x) -> (may_add o -> ~ In (n_kind x) wrapping_keepers) -> (forall b, o = SetVisible b -> n_kind x <> KLoading) ->
  s_classes (n_state y) <> s_classes (n_state x) \/ s_visible (n_state y) <> s_visible (n_state x) \/ s_disabled (n_state y) <> s_disabled (n_state x) ->
  s_dirty (n_state y) = true.
Proof.
  intros o n p x y No A B U W L Ch. pose proof (query_exact user m sel filter o No p n) as Q. rewrite A, B in Q.
  destruct Q as (_ & _ & _ & Q1 & Q2).
  assert (Or : n_state y = n_state x \/ n_state y = one user o (n_kind x) (n_state x)).
  { destruct (named m sel x); [|auto]. destruct (filter x); [|auto]. destruct (reached_dec p n); auto. }
  destruct Or as [E | E].
  - exfalso. rewrite E in Ch. tauto.
  - destruct (one_redraw user o (n_kind x) (n_state x) U W L) as [D | (C1 & C2 & C3)]; [rewrite E; exact D|].
    exfalso. rewrite E in Ch. tauto.
Qed.

(** A label, a button, an input or another widget around a static that is given a class is
    not drawn again for it; nor is a loading indicator that is hidden or shown. *)
Theorem C119_redraw_refuted : forall n p x, at_place n p = Some x -> reached n p -> named m sel x = true -> filter x = true ->
  s_dirty (n_state x) = false ->
  (In (n_kind x) wrapping_keepers -> forall c, ~ In c (s_classes (n_state x)) ->
    exists y, at_place (query user m sel filter (AddClass c) n) p = Some y /\ In c (s_classes (n_state y)) /\ s_dirty (n_state y) = false) /\
  (n_kind x = KLoading -> forall b, exists y, at_place (query user m sel filter (SetVisible b) n) p = Some y /\
      s_visible (n_state y) = b /\ s_dirty (n_state y) = false).
Proof.
  intros n p x A R Nm F D. split.
  - intros K c _.
    destruct (query_at user m sel filter (AddClass c)) with (n := n) (p := p) (x := x) as (y & Ey & _ & _ & Es); auto; [discriminate|].
    exists y. split; [exact Ey|]. rewrite Es. cbn in K.
    repeat destruct K as [<- | K]; try destruct K; (split; [apply in_or_app; right; now left|exact D]).
  - intros K b.
    destruct (query_at user m sel filter (SetVisible b)) with (n := n) (p := p) (x := x) as (y & Ey & _ & _ & Es); auto; [discriminate|].
    exists y. split; [exact Ey|]. rewrite Es, K. split; [reflexivity|exact D].
Qed.

(** Marking: a widget of the library is dirty afterwards just when it was before, or is chosen, or
    is below a chosen screen or app with only screens and the app in between; nothing else
    changes.  The filter must not ask what is dirty, and the program's widgets must at most
    set their own mark. *)
Theorem C119_mark : forall n p x, (forall s, user MarkDirty s = with_dirty s \/ user MarkDirty s = s) -> ignores_dirt filter ->
  at_place n p = Some x ->
  exists y, at_place (query user m sel filter MarkDirty n) p = Some y /\ n_kind y = n_kind x /\ n_id y = n_id x /\
    s_classes (n_state y) = s_classes (n_state x) /\ s_visible (n_state y) = s_visible (n_state x) /\ s_disabled (n_state y) = s_disabled (n_state x) /\
    (~ is_user (n_kind x) ->
     s_dirty (n_state y) = true <->
     s_dirty (n_state x) = true \/ (reached n p /\ named m sel x = true /\ filter x = true) \/
     below_marked (fun z => named m sel z && filter z) n p).
Proof.
  intros n p x T Ig A. destruct (visit_mark user m sel filter T Ig p n 0 x A) as (y & Ey & B & C & (U1 & U2 & U3) & D).
  exists y. repeat (split; [assumption|]). intros U. rewrite (D U), andb_true_iff. intuition lia.
Qed.
End Query.

(** *** Several operations, without a filter *)
Section Twice.
Variables (m : text) (sel : ssel).
Let all (x : node) : bool := true.

(** Toggling twice gives the classes there were. *)
Theorem C119_toggle_twice : forall c n p x, at_place n p = Some x -> reached n p -> named m sel x = true ->
  In (n_kind x) keepers -> NoDup (s_classes (n_state x)) ->
  exists y, at_place (query user m sel all (ToggleClass c) (query user m sel all (ToggleClass c) n)) p = Some y /\
    forall d, In d (s_classes (n_state y)) <-> In d (s_classes (n_state x)).
Proof.
  intros c n p x A R Nm K ND.
  destruct (query_at user m sel all (ToggleClass c)) with (n := n) (p := p) (x := x) as (y & Ey & Ky & Iy & Es); auto; [discriminate|].
  destruct (query_at user m sel all (ToggleClass c)) with (n := query user m sel all (ToggleClass c) n) (p := p) (x := y) as (z & Ez & Kz & Iz & Et); auto;
    [discriminate|apply query_reached; [discriminate|exact R]|rewrite <- Nm; apply named_same; assumption|].
  exists z. split; [exact Ez|].
  destruct (one_class user (ToggleClass c) (n_kind x) (n_state x) I K ND) as (C1 & _). rewrite <- Es in C1.
  assert (ND' : NoDup (s_classes (n_state y))) by (rewrite Es; apply one_toggle_nodup; assumption).
  rewrite <- Ky in K. destruct (one_class user (ToggleClass c) (n_kind y) (n_state y) I K ND') as (C2 & _). rewrite <- Et in C2.
  intros d. rewrite C2. cbn [asks]. rewrite C1. cbn [asks].
  destruct (text_dec d c) as [-> | Ne]; [|tauto].
  destruct (in_dec text_dec c (s_classes (n_state x))); tauto.
Qed.

(** Hiding, showing, disabling and enabling again changes nothing more in the widgets of the library. *)
Theorem C119_repeat : forall o n p x, (exists b, o = SetVisible b \/ o = SetDisabled b) -> at_place n p = Some x -> ~ is_user (n_kind x) ->
  exists y z, at_place (query user m sel all o n) p = Some y /\ at_place (query user m sel all o (query user m sel all o n)) p = Some z /\
    n_state z = n_state y.
Proof.
  intros o n p x Ho A U. assert (No : o <> MarkDirty) by (destruct Ho as (b & [-> | ->]); discriminate).
  pose proof (query_exact user m sel all o No p n) as Q. rewrite A in Q.
  destruct (at_place (query user m sel all o n) p) as [y|] eqn:Ey; [|destruct Q]. destruct Q as (Ky & Iy & _ & Q1 & Q2).
  pose proof (query_exact user m sel all o No p (query user m sel all o n)) as Q. rewrite Ey in Q.
  destruct (at_place (query user m sel all o (query user m sel all o n)) p) as [z|] eqn:Ez; [|destruct Q]. destruct Q as (Kz & Iz & _ & Q3 & Q4).
  exists y, z. repeat (split; [reflexivity|]).
  destruct (named m sel x) eqn:Nm.
  2: { apply Q4. right. left. rewrite <- Nm. apply named_same; assumption. }
  destruct (reached_dec p n) as [R | R].
  2: { apply Q4. left. intros X. apply R. revert X. apply query_reached_back. exact No. }
  rewrite Q3; [|apply query_reached; assumption|rewrite <- Nm; apply named_same; assumption|reflexivity].
  rewrite Ky, (Q1 R eq_refl eq_refl). destruct Ho as (b & [-> | ->]); apply set_again; assumption.
Qed.

(** A label, button, input or other widget around a static that has a class and is given it again
    has it twice: taking it away once does not take it away. *)
Theorem C119_copies_refuted : forall c n p x, at_place n p = Some x -> reached n p -> named m sel x = true ->
  In (n_kind x) wrapping_keepers -> In c (s_classes (n_state x)) ->
  exists y, at_place (query user m sel all (RemoveClass c) (query user m sel all (AddClass c) n)) p = Some y /\ In c (s_classes (n_state y)).
Proof.
  intros c n p x A R Nm K H.
  destruct (query_at user m sel all (AddClass c)) with (n := n) (p := p) (x := x) as (y & Ey & Ky & Iy & Es); auto; [discriminate|].
  destruct (query_at user m sel all (RemoveClass c)) with (n := query user m sel all (AddClass c) n) (p := p) (x := y) as (z & Ez & Kz & Iz & Et); auto;
    [discriminate|apply query_reached; [discriminate|exact R]|rewrite <- Nm; apply named_same; assumption|].
  exists z. split; [exact Ez|]. rewrite Et, Ky, Es. apply remove_one_copy; assumption.
Qed.

(** The widgets that lack a class, asked for by a filter, lack it no more once they have been given it,
    and asking again changes nothing in the widgets of the library. *)
Theorem C119_settled : forall c n p x, let lacks := fun z => negb (has (n_kind z) (n_state z) c) in
  at_place n p = Some x -> reached n p -> named m sel x = true -> In (n_kind x) keepers ->
  exists y z, at_place (query user m sel lacks (AddClass c) n) p = Some y /\
    at_place (query user m sel lacks (AddClass c) (query user m sel lacks (AddClass c) n)) p = Some z /\
    In c (s_classes (n_state y)) /\ n_state z = n_state y.
Proof.
  intros c n p x lacks A R Nm K. assert (No : AddClass c <> MarkDirty) by discriminate.
  pose proof (query_exact user m sel lacks (AddClass c) No p n) as Q. rewrite A in Q.
  destruct (at_place (query user m sel lacks (AddClass c) n) p) as [y|] eqn:Ey; [|destruct Q]. destruct Q as (Ky & Iy & _ & Q1 & Q2).
  pose proof (query_exact user m sel lacks (AddClass c) No p (query user m sel lacks (AddClass c) n)) as Q. rewrite Ey in Q.
  destruct (at_place (query user m sel lacks (AddClass c) (query user m sel lacks (AddClass c) n)) p) as [z|] eqn:Ez; [|destruct Q]. destruct Q as (_ & _ & _ & _ & Q4).
  exists y, z. repeat (split; [reflexivity|]).
  assert (H : In c (s_classes (n_state y))).
  { destruct (lacks x) eqn:L.
    - rewrite (Q1 R Nm eq_refl). apply add_there. exact K.
    - rewrite Q2 by auto. unfold lacks in L. apply negb_false_iff in L. revert L. apply has_keeper; exact K. }
  split; [exact H|]. apply Q4. right. right. unfold lacks. apply negb_false_iff. rewrite Ky. apply has_keeper; assumption.
Qed.
End Twice.
End User.

Print Assumptions C119_exact.
Print Assumptions C119_classes.
Print Assumptions C119_hide.
Print Assumptions C119_disable.
Print Assumptions C119_ignored_refuted.
Print Assumptions C119_still_dirty.
Print Assumptions C119_redraw.
Print Assumptions C119_redraw_refuted.
Print Assumptions C119_mark.
Print Assumptions C119_toggle_twice.
Print Assumptions C119_repeat.
Print Assumptions C119_copies_refuted.
Print Assumptions C119_settled.

(** *** Examples *)
(** a screen with a column of a label, a switch and a container, and a header *)
Definition plain (cs : list text) : state := State cs true false false.
Definition ex_column : node :=
  N KVertical (Some (str "main")) (plain [])
    [N KLabel (Some (str "name")) (plain [str "old"]) []; N KSwitch None (plain []) [];
     N KContainer None (plain []) [N KStatic None (plain [str "old"; str "big"]) []]].
Definition ex_root : node := N KScreen None (plain []) [ex_column; N KHeader None (plain []) [N KHeaderTitle None (plain []) []]].
Definition ex_user (o : op) (s : state) : state := match o with MarkDirty => with_dirty s | _ => s end.
Definition all_of (n : node) : bool := true.
Definition state_at (n : node) (p : list nat) : option state := option_map n_state (at_place n p).

(** the static is reached and named; the title of the header is there and not reached *)
Example ex_reached : reached ex_root [0; 2; 0] /\ ~ reached ex_root [1; 0] /\
  exists x, at_place ex_root [0; 2; 0] = Some x /\ named (str "M") (SSel (Some (str "Static")) None) x = true /\ In (n_kind x) keepers.
Proof.
  split; [|split].
  - cbn. unfold holds_children. repeat split; left; cbn; tauto.
  - intros [_ [[H | (p & a & H)] _]]; [cbn in H; repeat destruct H as [H | H]; try discriminate H; exact H|discriminate H].
  - eexists. split; [reflexivity|]. split; [vm_compute; reflexivity|cbn; tauto].
Qed.
(** [query("Static").toggle_class("old")] and the like *)
Definition typed (t : string) : ssel := SSel (Some (str t)) None.
Definition ask (t : string) (o : op) (n : node) : node := query ex_user (str "M") (typed t) all_of o n.
Example ex_toggle :
  state_at (ask "Label" (ToggleClass (str "old")) ex_root) [0; 0] = Some (State [] true false true) /\
  state_at (ask "Static" (ToggleClass (str "old")) ex_root) [0; 2; 0] = Some (State [str "big"] true false true) /\
  state_at (ask "Static" (ToggleClass (str "old")) ex_root) [0; 0] = Some (plain [str "old"]) /\
  state_at (ask "Container" (ToggleClass (str "old")) ex_root) [0; 2] = Some (State [str "old"] true false true) /\
  state_at (ask "Vertical" (ToggleClass (str "old")) ex_root) [0] = Some (plain []) /\
  state_at (ask "Switch" (ToggleClass (str "old")) ex_root) [0; 1] = Some (plain []) /\
  state_at (ask "HeaderTitle" (ToggleClass (str "old")) ex_root) [1; 0] = Some (plain []).
Proof. vm_compute. repeat split. Qed.
Example ex_hide :
  state_at (ask "Switch" (SetVisible false) ex_root) [0; 1] = Some (State [] false false true) /\
  state_at (ask "Label" (SetVisible false) ex_root) [0; 0] = Some (plain [str "old"]).
Proof. vm_compute. repeat split. Qed.
Example ex_disable : let r := query ex_user (str "M") (SSel None (Some (str "name"))) all_of (SetDisabled true) ex_root in
  state_at r [0; 0] = Some (State [str "old"] true true true) /\ state_at r [0; 2; 0] = Some (plain [str "old"; str "big"]).
Proof. vm_compute. repeat split. Qed.
(** a label given a class twice *)
Example ex_copies :
  let r := ask "Label" (AddClass (str "old")) ex_root in
  state_at r [0; 0] = Some (plain [str "old"; str "old"]) /\
  state_at (ask "Label" (RemoveClass (str "old")) r) [0; 0] = Some (State [str "old"] true false true) /\
  ask "Static" (AddClass (str "old")) ex_root = ex_root.
Proof. vm_compute. repeat split. Qed.
(** marking the screen marks the column and the header, not what is in them *)
Example ex_mark : let r := query ex_user (str "M") (SSel (Some (str "Screen")) None) all_of MarkDirty ex_root in
  map (fun p => option_map s_dirty (state_at r p)) [[]; [0]; [1]; [0; 0]; [0; 2; 0]; [1; 0]] =
  [Some true; Some true; Some true; Some false; Some false; Some false].
Proof. vm_compute. reflexivity. Qed.
Example ex_mark_conditions : (forall s, ex_user MarkDirty s = with_dirty s \/ ex_user MarkDirty s = s) /\ ignores_dirt all_of /\
  below_marked (fun z => named (str "M") (SSel (Some (str "Screen")) None) z && all_of z) ex_root [0].
Proof.
  split; [intros s; left; reflexivity|]. split; [intros x y _; reflexivity|].
  exists [], [0], ex_root. split; [reflexivity|]. split; [discriminate|]. split; [exact I|]. split; [reflexivity|]. split; [vm_compute; reflexivity|].
  cbn. auto.
Qed.
(** widgets that are clean, for the conditions of the last theorems *)
Example ex_lacks : exists x, at_place ex_root [0; 0] = Some x /\ s_dirty (n_state x) = false /\ In (n_kind x) wrapping_keepers /\
  In (str "old") (s_classes (n_state x)) /\ ~ In (str "new") (s_classes (n_state x)) /\ NoDup (s_classes (n_state x)).
Proof.
  eexists. split; [reflexivity|]. cbn. repeat split; auto.
  - intros [H | []]. vm_compute in H. discriminate H.
  - constructor; [intros []|constructor].
Qed.
