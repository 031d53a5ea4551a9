(** C116: what rulers, loading indicators and scroll bar corners draw. *)
From Coq Require Import ZArith List Bool Arith Lia.
From Verif Require Import Canvas_Model Canvas_Spec Mark_Model Mark_Spec Mark_Proofs.
Import ListNotations.
Open Scope Z_scope.

Section Props.
Context {Sym Color Bg : Type}.
Variable gw : Sym -> nat.
Variable space : Sym.
Variable sym_eqb : Sym -> Sym -> bool.
Variable translucent : option Bg -> bool.
Variable resolve_bg : option Bg -> option Color -> option Color.
Notation cell := (@cell Sym Color).
Notation canvas := (@canvas Sym Color).

(** A mark with the colours and attributes given, over the background that was there. *)
Definition mark (g : Sym) (fg : option Color) (bg : option Bg) (a : attrs) (old : cell) : cell :=
  Cell g 1 false fg (resolve_bg bg (c_bg old)) a.

(** *** Ruler *)
Definition ruler_place (o : orientation) (r : region) (x y : Z) : bool :=
  match o with
  | Vertical => (x =? rg_x r) && (rg_y r <=? y) && (y <? rg_y r + rg_h r)
  | Horizontal => (y =? rg_y r) && (rg_x r <=? x) && (x <? rg_x r + rg_w r)
  end.
Definition ruler_offset (o : orientation) (r : region) (x y : Z) : Z :=
  match o with Vertical => y - rg_y r | Horizontal => x - rg_x r end.
(** The ruler draws a mark on every place of the first column (row) of its region,
    a bullet on every fifth, and nothing else, whatever the canvas, the clip and the region. *)
Theorem C116_ruler : forall bullet dot o l (c : canvas) r, sound c -> gw bullet = 1%nat -> gw dot = 1%nat ->
  sym_eqb bullet space = false -> sym_eqb dot space = false ->
  exists c', ruler_render gw space sym_eqb translucent resolve_bg bullet dot o l c r = Some c' /\
    drawn c c' (fun x y => negb (l_hidden l) && (0 <? rg_w r) && (0 <? rg_h r) && ruler_place o r x y)
      (fun x y => mark (if major (ruler_offset o r x y) then bullet else dot) (l_fg l) (l_bg l) (l_attrs l)).
Proof.
  intros bullet dot o l c r S B D NB ND. unfold ruler_render.
  destruct (l_hidden l) eqn:H; [exists c; split; [reflexivity|apply drawn_nothing; [exact S|reflexivity]]|].
  destruct ((rg_w r <=? 0) || (rg_h r <=? 0)) eqn:E; [exists c; split; [reflexivity|apply drawn_nothing; [exact S|intros x y _; cbn; lia]]|].
  assert (K : forall g, g = bullet \/ g = dot -> forall old, stamp space sym_eqb translucent resolve_bg g (l_fg l) (l_bg l) (l_attrs l) old = mark g (l_fg l) (l_bg l) (l_attrs l) old).
  { intros g G old. unfold stamp, keeps. destruct G as [-> | ->]; rewrite ?NB, ?ND, andb_false_r; reflexivity. }
  destruct o.
  - destruct (rows_drawn gw space sym_eqb translucent resolve_bg bullet dot B D l (rg_x r) (rg_y r) (Z.to_nat (rg_h r)) 0 c S) as (c' & E' & Dr). exists c'. split; [exact E'|].
    eapply drawn_same; [exact Dr| |].
    + intros x y _. cbn. lia.
    + intros x y old _. cbn beta. unfold ruler_offset. apply K. destruct (major _); auto.
  - destruct (render_one_segment gw space sym_eqb translucent resolve_bg l c (map (char_at bullet dot) (seq 0 (Z.to_nat (rg_w r)))) (rg_x r) (rg_y r) dot) as (c' & E' & Dr); [|exact S|].
    { apply Forall_forall. intros g G. apply in_map_iff in G. destruct G as (i & <- & _). apply char_narrow; assumption. }
    exists c'. split; [exact E'|]. rewrite map_length, seq_length in Dr. eapply drawn_same; [exact Dr| |].
    + intros x y _. cbn. lia.
    + intros x y old P. cbn beta in *. unfold ruler_offset.
      assert (N : nth (Z.to_nat (x - rg_x r)) (map (char_at bullet dot) (seq 0 (Z.to_nat (rg_w r)))) dot = if major (x - rg_x r) then bullet else dot).
      { rewrite (nth_indep _ dot (char_at bullet dot 0)) by (rewrite map_length, seq_length; lia). rewrite map_nth, seq_nth by lia. rewrite char_major. cbn [plus]. rewrite Z2Nat.id by lia. reflexivity. }
      rewrite N. apply K. destruct (major _); auto.
Qed.
(** All its marks are in its region, and among any first [n] of them one in five is a bullet. *)
Theorem C116_ruler_in_region : forall o r x y, (0 <? rg_w r) && (0 <? rg_h r) && ruler_place o r x y = true -> in_region r x y.
Proof. intros [] r x y H; unfold in_region; cbn in H; lia. Qed.
Theorem C116_ruler_bullets : forall n, length (filter (fun k => major (Z.of_nat k)) (seq 0 n)) = (n / 5)%nat.
Proof. exact count_major. Qed.

(** *** LoadingIndicator *)
Variable frames : list Sym.
Definition spin (s : spinner) (e : spin_event) : spinner :=
  match e with Tick => tick frames s | Show v => show_inherent v s | ShowAsWidget v => show_widget v s | Clean => spinner_clean s end.
(** Whatever has happened, a loading indicator shows the frame of the number of its
    ticks, going round, and is visible as last set; drawing it never fails. *)
Lemma spin_state h : frames <> [] -> forall s, (sp_frame s < length frames)%nat ->
  sp_frame (fold_left spin h s) = ((sp_frame s + ticks h) mod length frames)%nat /\ sp_visible (fold_left spin h s) = last_shown (sp_visible s) h.
Proof.
  intros F. assert (L : length frames <> 0%nat) by (destruct frames; [congruence|discriminate]).
  induction h as [|e h IH]; intros s B; [cbn; rewrite Nat.add_0_r, Nat.mod_small by exact B; auto|]. cbn [fold_left].
  assert (B' : (sp_frame (spin s e) < length frames)%nat).
  { destruct e; cbn; [apply Nat.mod_upper_bound; exact L| |exact B|exact B]. unfold show_inherent. destruct (Bool.eqb _ _); exact B. }
  destruct (IH (spin s e) B') as [A V]. rewrite A, V. destruct e as [|v|v|]; cbn.
  - rewrite Nat.add_mod_idemp_l by exact L. split; [f_equal; unfold ticks; cbn [filter length]; lia|reflexivity].
  - unfold show_inherent. destruct (Bool.eqb_spec (sp_visible s) v) as [->|]; cbn; auto.
  - auto.
  - auto.
Qed.
Theorem C116_loading : forall h l (c : canvas) r d, frames <> [] -> Forall (fun g => gw g = 1%nat /\ sym_eqb g space = false) frames -> sound c ->
  exists c', spinner_render gw space sym_eqb translucent resolve_bg frames (fold_left spin h spinner_new) l c r = Some c' /\
    drawn c c' (fun x y => last_shown true h && negb (l_hidden l) && (x =? rg_x r) && (y =? rg_y r))
      (fun _ _ => mark (nth (ticks h mod length frames) frames d) (l_fg l) (l_bg l) attrs_default).
Proof.
  intros h l c r d F N S. assert (L : (0 < length frames)%nat) by (destruct frames; [congruence|cbn; lia]).
  destruct (spin_state h F spinner_new) as [A V]; [exact L|]. cbn [spinner_new sp_frame sp_visible plus] in A, V. unfold spinner_render. rewrite V, A.
  destruct (last_shown true h); [|exists c; split; [reflexivity|apply drawn_nothing; [exact S|reflexivity]]].
  destruct (l_hidden l); [exists c; split; [reflexivity|apply drawn_nothing; [exact S|reflexivity]]|]. cbn [negb orb].
  assert (M : (ticks h mod length frames < length frames)%nat) by (apply Nat.mod_upper_bound; lia).
  rewrite (nth_error_nth' frames d M). rewrite Forall_forall in N. destruct (N _ (nth_In frames d M)) as [N1 N2].
  destruct (put_one gw space sym_eqb translucent resolve_bg c (rg_x r) (rg_y r) (nth (ticks h mod length frames) frames d) (l_fg l) (l_bg l) attrs_default N1 S) as (c' & E & D).
  exists c'. split; [exact E|]. eapply drawn_same; [exact D|reflexivity|]. intros x y old _. unfold stamp, keeps. rewrite N2, andb_false_r. reflexivity.
Qed.
(** A tick always asks for a new drawing, and so does a change of the visibility. *)
Theorem C116_loading_redrawn : forall s, sp_dirty (tick frames s) = true /\
  (forall v, v <> sp_visible s -> sp_dirty (show_inherent v s) = true) /\ (forall v, v = sp_visible s -> show_inherent v s = s).
Proof.
  intros s. split; [reflexivity|]. split; intros v H; unfold show_inherent; destruct (Bool.eqb_spec (sp_visible s) v) as [E|E]; congruence || reflexivity.
Qed.
(** Through the Widget interface it is hidden without asking for a new drawing. *)
Theorem C116_loading_hidden_quietly_refuted : forall s v, sp_dirty s = false ->
  sp_visible (show_widget v s) = v /\ sp_dirty (show_widget v s) = false.
Proof. intros s v D. split; [reflexivity|exact D]. Qed.

(** *** ScrollBarCorner *)
(** The corner fills the part of its region that it has the size for with its
    colour, and nothing else; a translucent colour leaves what is written there. *)
Theorem C116_corner : forall hidden w h own style fallback (c : canvas) r, sound c -> gw space = 1%nat -> sym_eqb space space = true ->
  let b := match own, style with Some b, _ => b | None, Some b => b | None, None => fallback end in
  exists c', corner_render gw space sym_eqb translucent resolve_bg hidden w h own style fallback c r = Some c' /\
    drawn c c' (fun x y => negb hidden && (rg_x r <=? x) && (x <? rg_x r + Z.min (rg_w r) (Z.of_nat w)) && (rg_y r <=? y) && (y <? rg_y r + Z.min (rg_h r) (Z.of_nat h)))
      (fun _ _ old => if translucent (Some b) then with_bg old (resolve_bg (Some b) (c_bg old)) else mark space None (Some b) attrs_default old).
Proof.
  intros hidden w h own style fallback c r S G Sp. cbn zeta. unfold corner_render. destruct hidden; [exists c; split; [reflexivity|apply drawn_nothing; [exact S|reflexivity]]|].
  replace (corner_color own style fallback) with (match own, style with Some b, _ => b | None, Some b => b | None, None => fallback end) by (destruct own, style; reflexivity).
  set (b := match own, style with Some b, _ => b | None, Some b => b | None, None => fallback end).
  destruct (corner_rows_drawn gw space sym_eqb translucent resolve_bg G b (rg_x r) (rg_y r) (Z.to_nat (Z.min (rg_w r) (Z.of_nat w))) (Z.to_nat (Z.min (rg_h r) (Z.of_nat h))) 0 c S) as (c' & E & D).
  exists c'. split; [exact E|]. eapply drawn_same; [exact D| |].
  - intros x y _. cbn. lia.
  - intros x y old _. unfold stamp, keeps, mark. rewrite Sp. clear D E. subst b. destruct own, style; cbn; rewrite !andb_true_r; reflexivity.
Qed.
(** So a corner asked for its size covers its region whole. *)
Theorem C116_corner_covers : forall w h r x y, rg_w r = Z.of_nat w -> rg_h r = Z.of_nat h -> in_region r x y ->
  (rg_x r <=? x) && (x <? rg_x r + Z.min (rg_w r) (Z.of_nat w)) && (rg_y r <=? y) && (y <? rg_y r + Z.min (rg_h r) (Z.of_nat h)) = true.
Proof. intros w h r x y W H I. unfold in_region in I. lia. Qed.
Theorem C116_corner_resized : forall w h ow oh d, update_size w h (ow, oh, d) = (w, h, if ((ow =? w) && (oh =? h))%nat then d else true).
Proof. intros w h ow oh d. cbn. destruct (Nat.eqb_spec ow w) as [->|]; [destruct (Nat.eqb_spec oh h) as [->|]|]; reflexivity. Qed.
End Props.

(** A loading indicator draws its character even if its region is empty. *)
Definition ex_canvas : @canvas nat nat := Canvas 3 7 (repeat (Cell 0%nat 1 false None None attrs_default) 21) (repeat (Cell 0%nat 1 false None None attrs_default) 21) true [].
Theorem C116_loading_in_empty_region_refuted : exists (c c' : @canvas nat nat) r,
  (forall x y, ~ in_region r x y) /\
  spinner_render (fun _ => 1%nat) 0%nat Nat.eqb (fun _ : option nat => false) (fun b _ => b) [5%nat] spinner_new (Look false None None attrs_default) c r = Some c' /\
  at_xy c' 1 1 <> at_xy c 1 1.
Proof.
  exists ex_canvas. eexists. exists (Region 1 1 0 0). split; [intros x y; unfold in_region; cbn; lia|]. split; [reflexivity|]. discriminate.
Qed.
(** A case: a ruler of seven rows on a canvas of that height, and a corner of two by one. *)
Definition ex_ruler := ruler_render (fun _ : nat => 1%nat) 0%nat Nat.eqb (fun _ : option nat => false) (fun b _ => b) 7%nat 8%nat Vertical (Look false None None attrs_default) ex_canvas (Region 2 0 1 7).
Example C116_ruler_example : sound ex_canvas /\ option_map (fun c => map (fun y => option_map c_sym (at_xy c 2 y)) [0; 1; 2; 3; 4; 5; 6]) ex_ruler =
  Some [Some 8; Some 8; Some 8; Some 8; Some 7; Some 8; Some 8]%nat /\ shown_at ex_canvas 2 4.
Proof. split; [reflexivity|]. split; [reflexivity|]. split; cbv; repeat split; congruence. Qed.
Example C116_loading_example : Forall (fun g => (fun _ : nat => 1%nat) g = 1%nat /\ Nat.eqb g 0 = false) [5; 6; 7]%nat /\ ticks [Tick; Show false; Tick; Show true; Tick; Clean; Tick] = 4%nat /\
  last_shown true [Tick; Show false; Tick; Show true; Tick; Clean; Tick] = true.
Proof. repeat constructor. Qed.
Example C116_corner_example : option_map (fun c => map (fun x => option_map c_bg (at_xy c x 0)) [0; 1; 2])
  (corner_render (fun _ : nat => 1%nat) 0%nat Nat.eqb (fun _ : option nat => false) (fun b _ => b) false 2 1 None (Some 9%nat) 4%nat ex_canvas (Region 1 0 5 5)) = Some [Some None; Some (Some 9%nat); Some (Some 9%nat)].
Proof. reflexivity. Qed.

Print Assumptions C116_ruler.
Print Assumptions C116_ruler_in_region.
Print Assumptions C116_ruler_bullets.
Print Assumptions C116_loading.
Print Assumptions C116_loading_redrawn.
Print Assumptions C116_loading_hidden_quietly_refuted.
Print Assumptions C116_corner.
Print Assumptions C116_corner_covers.
Print Assumptions C116_corner_resized.
Print Assumptions C116_loading_in_empty_region_refuted.
