(** C51, C78: the styles of the widget tree. *)
From Coq Require Import List Bool Arith Lia.
From Verif Require Import Restyle_Model Restyle_Spec Restyle_Proofs.
Import ListNotations.

Section Restyle.
Context {M C Vis R : Type}.
Variable cascade : M -> list M -> style C Vis R.
Variable theme_color : option C.
Variable visible : Vis.
Variable see_through : C -> bool.
Variable over tinted : C -> C -> C.
Notation widget := (widget M C Vis R).
Notation style_of k := (w_style M C Vis R (data M C Vis R k)).
Notation resolve_dirty := (resolve_dirty M C Vis R cascade theme_color visible see_through over tinted).
Notation resolve_styles := (resolve_styles M C Vis R cascade theme_color visible see_through over tinted).
Notation drawn := (drawn cascade theme_color visible see_through over tinted).
Notation style_for := (style_for cascade theme_color visible see_through over tinted).

Lemma back : forall (w : widget) p ds c pd, chain w p = Some ds ->
  exists ds', chain (resolve M C Vis R cascade see_through over tinted w c pd [] (from_theme C Vis theme_color visible)) p = Some ds' /\ forall s, style_for (upwards ds') s -> style_for (upwards ds) s.
Proof.
  intros w p ds c pd E. pose proof (resolve_chain cascade see_through over tinted p w c pd [] (from_theme C Vis theme_color visible)) as K. rewrite E in K. cbn in K.
  destruct (chain (resolve _ _ _ _ _ _ _ _ w _ _ _ _) p) as [ds'|]; [|discriminate]. cbn in K. injection K as K. exists ds'. split; auto.
  intros s. apply style_for_like. apply lineage_like. rewrite !map_rev, K. reflexivity.
Qed.

(** A full restyle gives every widget that is visible, and whose ancestors are,
    the style specified: what is said inline, else in the stylesheet, colour and
    visibility else from the nearest ancestor. *)
Theorem C78_full : forall (w : widget) p ds, chain w p = Some ds ->
  exists k, at_ (resolve_styles w) p = Some k /\ style_for (upwards ds) (style_of k).
Proof.
  intros w p ds E. destruct (back w p ds false true E) as (ds' & E' & B).
  destruct (right_chain cascade theme_color visible see_through over tinted p (resolve_styles w) [] ds') as (k & A & S); auto.
  - unfold resolve_styles. apply (resolve_right cascade theme_color visible see_through over tinted w [] false true); [apply good_root|left; reflexivity].
  - exists k. split; auto. apply B. unfold upwards. rewrite app_nil_r in S. exact S.
Qed.
(** The style specified is only one. *)
Theorem C78_unique : forall (l : list (wdata M C Vis R * list M)) s s', style_for l s -> style_for l s' -> s = s'.
Proof. intros l s s'. apply style_for_unique. Qed.

Lemma drawn_right : forall w, drawn w -> right cascade theme_color visible see_through over tinted [] w.
Proof.
  intros w D. induction D as [w|w w' D IH E].
  - apply (resolve_right cascade theme_color visible see_through over tinted w [] false true); [apply good_root|left; reflexivity].
  - apply (resolve_right cascade theme_color visible see_through over tinted w' [] false false); [apply good_root|right]. split; auto. eapply edit_covered; eauto.
Qed.
(** However the tree has changed from frame to frame, whenever it is drawn every
    visible widget has the style specified, provided changes were marked. *)
Theorem C51_every_frame : forall (w : widget) p ds, drawn w -> chain w p = Some ds ->
  exists k, at_ w p = Some k /\ style_for (upwards ds) (style_of k).
Proof.
  intros w p ds D E. destruct (right_chain cascade theme_color visible see_through over tinted p w [] ds (drawn_right w D) E) as (k & A & S). exists k. split; auto. unfold upwards. rewrite app_nil_r in S. exact S.
Qed.
(** It is the style a full restyle would give. *)
Theorem C51_as_full : forall (w w' : widget) p ds, drawn w -> edit w w' -> chain w' p = Some ds ->
  exists k k', at_ (resolve_dirty w') p = Some k /\ at_ (resolve_styles w') p = Some k' /\ style_of k = style_of k'.
Proof.
  intros w w' p ds D E CH. destruct (C78_full w' p ds CH) as (k' & A' & S'). destruct (back w' p ds false false CH) as (ds' & E' & B).
  destruct (C51_every_frame (resolve_dirty w') p ds') as (k & A & S); [exact (drawn_next cascade theme_color visible see_through over tinted w w' D E)|exact E'|].
  exists k, k'. repeat split; auto. exact (style_for_unique cascade theme_color visible see_through over tinted _ _ _ (B _ S) S').
Qed.
(** Restyling changes nothing but styles and dirty marks: ids, classes, states,
    inline styles and what is visible stay. *)
Theorem C51_only_styles : forall (w : widget) p,
  let same := option_map (map (fun d => (w_meta M C Vis R d, w_inline M C Vis R d))) in
  same (chain (resolve_dirty w) p) = same (chain w p) /\ same (chain (resolve_styles w) p) = same (chain w p).
Proof. intros w p same. split; apply resolve_chain. Qed.
(** After it no visible widget is dirty, and restyling again changes nothing. *)
Theorem C51_settles : forall w : widget,
  resolve_dirty (resolve_dirty w) = resolve_dirty w /\ resolve_dirty (resolve_styles w) = resolve_styles w /\
  forall p ds, chain (resolve_dirty w) p = Some ds -> exists k, at_ (resolve_dirty w) p = Some k /\ is_dirty M C Vis R k = false.
Proof.
  intros w. split; [|split]; [apply settled_fixed, resolve_settled..|]. intros p ds. apply settled_chain. apply resolve_settled.
Qed.
End Restyle.
Print Assumptions C78_full.
Print Assumptions C78_unique.
Print Assumptions C51_every_frame.
Print Assumptions C51_as_full.
Print Assumptions C51_only_styles.
Print Assumptions C51_settles.

(** ** A small world: meta data and colours are numbers, the rest is nothing. *)
Definition plain_style (c : option nat) (a : bool) (bg : option nat) : style nat bool unit :=
  Style nat bool unit c a bg None None None true false tt.
(** 7 has colour 70 by contrast, 1 background 10, 2 a see-through background 3;
    8 is coloured 80 under 7 only. *)
Definition sheet (m : nat) (above : list nat) : style nat bool unit :=
  match m with
  | 7 => plain_style (Some 70) true None
  | 1 => plain_style None false (Some 10)
  | 2 => plain_style None false (Some 3)
  | 8 => plain_style (if existsb (Nat.eqb 7) above then Some 80 else None) false None
  | _ => plain_style None false None
  end.
Definition node (m : nat) (i : option (inline nat)) (vis flag gathers : bool) (ks : list (widget nat nat bool unit)) : widget nat nat bool unit :=
  W _ _ _ _ (WData nat nat bool unit m i vis flag gathers (plain_style None false None)) ks.
Definition full := resolve_styles nat nat bool unit sheet (Some 99) true (fun c => c <? 10) (fun a b => a + b) (fun a b => a * b).
Definition incr := resolve_dirty nat nat bool unit sheet (Some 99) true (fun c => c <? 10) (fun a b => a + b) (fun a b => a * b).
Definition colours (w : widget nat nat bool unit) (p : list nat) : option (option nat * bool * option nat) :=
  option_map (fun k => let s := w_style _ _ _ _ (data _ _ _ _ k) in (s_color _ _ _ s, s_auto _ _ _ s, s_behind _ _ _ s)) (at_ w p).
Definition world (m : nat) (flag : bool) : widget nat nat bool unit :=
  node 1 None true false true [node m None true flag false [node 2 None true false false [node 8 None true false false []]]; node 5 (Some (Inline nat None None None (Some 55))) true false false []].
(** The second tree is the first after it was drawn, its first child having become
    a 7 and been marked. *)
Definition redrawn : widget nat nat bool unit :=
  match full (world 4 false) with
  | W _ _ _ _ d (W _ _ _ _ e ks :: r) => W _ _ _ _ d (W _ _ _ _ (WData _ _ _ _ 7 None true true false (w_style _ _ _ _ e)) ks :: r)
  | w => w
  end.
Example C51_ex : drawn sheet (Some 99) true (fun c => c <? 10) (fun a b => a + b) (fun a b => a * b) (full (world 4 false)) /\
  edit (full (world 4 false)) redrawn /\
  map (colours (full (world 4 false))) [[]; [0]; [0; 0]; [0; 0; 0]; [1]]
  = [Some (Some 99, false, None); Some (Some 99, false, Some 10); Some (Some 99, false, Some 10); Some (Some 99, false, Some 13); Some (Some 55, false, Some 10)] /\
  map (colours redrawn) [[0]; [0; 0]; [0; 0; 0]] = [Some (Some 99, false, Some 10); Some (Some 99, false, Some 10); Some (Some 99, false, Some 13)] /\
  map (colours (incr redrawn)) [[]; [0]; [0; 0]; [0; 0; 0]; [1]]
  = [Some (Some 99, false, None); Some (Some 70, true, Some 10); Some (Some 70, true, Some 10); Some (Some 80, false, Some 13); Some (Some 55, false, Some 10)].
Proof.
  split; [apply drawn_first|]. split; [|repeat split].
  unfold redrawn. cbn. apply edit_below; [reflexivity|]. constructor; [apply edit_marked; reflexivity|]. constructor; [|constructor]. apply edit_below; [reflexivity|constructor].
Qed.
(** An inline colour does not end the choice by contrast. *)
Theorem C78_inline_auto_refuted : exists w : widget nat nat bool unit, colours (full w) [] = Some (Some 55, true, None) /\
  w_inline _ _ _ _ (data _ _ _ _ w) = Some (Inline nat None None None (Some 55)).
Proof. exists (node 7 (Some (Inline nat None None None (Some 55))) true false false []). split; reflexivity. Qed.
Print Assumptions C78_inline_auto_refuted.
(** A mark on a hidden widget is lost when its parent gathers marks: shown again
    without a new mark it keeps its old style. *)
Definition show (w : widget nat nat bool unit) : widget nat nat bool unit :=
  match w with
  | W _ _ _ _ d [W _ _ _ _ e ks] => W _ _ _ _ d [W _ _ _ _ (WData _ _ _ _ (w_meta _ _ _ _ e) (w_inline _ _ _ _ e) true (w_flag _ _ _ _ e) (w_gathers _ _ _ _ e) (w_style _ _ _ _ e)) ks]
  | w => w
  end.
Theorem C51_hidden_mark_refuted : exists w : widget nat nat bool unit,
  colours (incr (show (incr w))) [0] <> colours (full (show (incr w))) [0] /\ colours (incr (show w)) [0] = colours (full (show w)) [0].
Proof. exists (node 1 None true false true [node 7 None false true false []]). split; [intros H; discriminate H|reflexivity]. Qed.
Print Assumptions C51_hidden_mark_refuted.
