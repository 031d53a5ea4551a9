From Coq Require Import ZArith List Bool Lia.
From Verif Require Import Scroll_Model Bars_Model Pointer_Model Pointer_Spec.
Import ListNotations.
Open Scope Z_scope.

Lemma widget_nested : forall (P : widget -> Prop),
  P Leaf -> (forall k p kids, Forall P kids -> P (Box k p kids)) -> forall w, P w.
Proof.
  intros P HL HB. fix IH 1. intros [ | k p kids]; [exact HL | apply HB].
  induction kids as [ | w t IHt]; constructor; [apply IH | exact IHt].
Qed.

Lemma contains_iff : forall r x y, contains_point r x y = true <->
  (a_x r <= x < a_x r + a_w r /\ a_y r <= y < a_y r + a_h r).
Proof. intros. unfold contains_point. rewrite !andb_true_iff, !Z.leb_le, !Z.ltb_lt. lia. Qed.
Lemma contains_not : forall r x y, contains_point r x y = false <->
  ~ (a_x r <= x < a_x r + a_w r /\ a_y r <= y < a_y r + a_h r).
Proof. intros. rewrite <- contains_iff. destruct (contains_point r x y); intuition congruence. Qed.

Definition boxy (k : kind) : Prop := match k with KContainer | KScrollable | KScreen | KGrid => True | _ => False end.

Lemma nth_map_error : forall {A B} (f : A -> B) l i d, nth i (map f l) d = match nth_error l i with Some a => f a | None => d end.
Proof. induction l; intros [ | i] d; cbn; auto. Qed.

Lemma paint_kid_eq : forall x y kids path v i rg,
  paint_kid (map (painted x y) kids) path v (i, rg) =
  match nth_error kids i with Some w => painted x y w (path ++ [i]) rg v | None => [] end.
Proof. intros. unfold paint_kid. cbn [fst snd]. rewrite nth_map_error. destruct (nth_error kids i); reflexivity. Qed.
Lemma ask_kid_eq : forall x y ans pr kids path i rg,
  ask_kid (map (asked x y ans pr) kids) path (i, rg) =
  match nth_error kids i with Some w => asked x y ans pr w (path ++ [i]) rg | None => ([], false) end.
Proof. intros. unfold ask_kid. cbn [fst snd]. rewrite nth_map_error. destruct (nth_error kids i); reflexivity. Qed.

(** *** The clip of a container lies within its region *)
Definition within (a b : area) : Prop := forall x y, contains_point a x y = true -> contains_point b x y = true.
Lemma inner_within : forall p r, sane p -> within (inner p r) r.
Proof.
  intros p r (A & B & C & D & _) x y H. unfold inner in H.
  destruct ((a_w r <=? 0) || (a_h r <=? 0)); auto.
  rewrite contains_iff in *. cbn [a_x a_y a_w a_h] in H. lia.
Qed.
Lemma content_within : forall st r sv sh, 0 <= b_size_v st -> 0 <= b_size_h st -> within (content_region st r sv sh) r.
Proof.
  intros st r sv sh A B x y H. rewrite contains_iff in *. unfold content_region in H. cbn [a_x a_y a_w a_h] in H.
  destruct (sv || _); destruct sh; lia.
Qed.
Lemma settle_content : forall n st m i last, (exists a b, l_content last = content_region st i a b) \/ l_content last = i ->
  (exists a b, l_content (settle n st m i last) = content_region st i a b) \/ l_content (settle n st m i last) = i.
Proof.
  induction n as [ | n IH]; intros st m i last H; cbn [settle]; auto.
  destruct (m (content_region st i (l_v last) (l_h last))) as [vw vh].
  destruct (_ && _).
  - left. cbn. eauto.
  - apply IH. left. cbn. eauto.
Qed.
Lemma clip_within : forall k p r v, boxy k -> sane p -> within (d_clip (draw k p r v)) r.
Proof.
  intros k p r v K S x y H. pose proof S as (S1 & S2 & S3 & S4 & S5 & S6).
  assert (I : contains_point (inner p r) x y = true); [ | exact (inner_within p r S x y I)].
  destruct k; try destruct K; cbn [draw] in H.
  - unfold draw_container in H. destruct (p_extent p (inner p r) _) as [ew eh].
    set (s1 := set_viewport _ _ _) in H.
    assert (C : d_clip (let c := container_content p s1 (inner p r) in
      let '(kids, s2) := if shows_v (p_bars p) s1 && (a_w c <? a_w (inner p r)) then
        let again := p_place p c v in let (ew0, eh0) := p_extent p c again in
        (again, set_viewport (set_virtual_size s1 ew0 eh0) (a_w c) (a_h c)) else (p_place p (inner p r) v, s1) in
      Drawing c (map (shift (offset_x s2) (offset_y s2)) kids) s2 (shows_v (p_bars p) s2) (shows_h (p_bars p) s2))
      = container_content p s1 (inner p r)).
    { cbv zeta. destruct (shows_v (p_bars p) s1 && _); [destruct (p_extent p _ _) | ]; reflexivity. }
    cbv zeta in H, C. rewrite C in H. clear C.
    rewrite contains_iff in *. unfold container_content in H. cbn [a_x a_y a_w a_h] in H.
    destruct (shows_v (p_bars p) s1 || _); destruct (shows_h (p_bars p) s1 || _); lia.
  - unfold draw_scrollable in H. cbn [d_clip] in H. unfold scroll_layout, compute_layout in H.
    match type of H with context [settle 3 ?st ?m ?i ?last] =>
      destruct (settle_content 3 st m i last) as [(a & b & E) | E]; [right; reflexivity | | ]; rewrite E in H end; auto.
    exact (content_within _ _ _ _ S5 S6 x y H).
  - unfold draw_screen in H. destruct (p_extent p (inner p r) _) as [ew eh].
    cbv zeta in H.
    match type of H with context [if ?b then p_extent _ _ _ else _] => destruct (if b then p_extent p _ _ else (ew, eh)) as [fw fh] end.
    cbn [d_clip] in H. unfold screen_content in H. exact (content_within _ _ _ _ S5 S6 x y H).
  - exact H.
Qed.

(** *** What a widget covers lies within its region *)
Lemma paint_box_shape : forall x y k p fs path r v, boxy k ->
  paint_box x y k p fs path r v = [] \/ contains_point (d_clip (draw k p r v)) x y = true.
Proof.
  intros. unfold paint_box. destruct (_ || _); auto. cbv zeta.
  destruct (contains_point (d_clip (draw k p r v)) x y); cbn [andb]; auto.
Qed.
Lemma centred_within : forall vertical size r, 0 <= size <= (if vertical : bool then a_h r else a_w r) -> within (centred vertical size r) r.
Proof.
  intros vertical size r B x y H. rewrite contains_iff in *. unfold centred in H.
  destruct vertical; cbn [a_x a_y a_w a_h] in H.
  - pose proof (Z.quot_pos (Z.max (a_h r - size) 0) 2 ltac:(lia) ltac:(lia)).
    assert (Z.quot (Z.max (a_h r - size) 0) 2 <= Z.max (a_h r - size) 0) by (rewrite Z.quot_div_nonneg by lia; apply Z.div_le_upper_bound; lia).
    lia.
  - pose proof (Z.quot_pos (Z.max (a_w r - size) 0) 2 ltac:(lia) ltac:(lia)).
    assert (Z.quot (Z.max (a_w r - size) 0) 2 <= Z.max (a_w r - size) 0) by (rewrite Z.quot_div_nonneg by lia; apply Z.div_le_upper_bound; lia).
    lia.
Qed.
Lemma flat_map_nil : forall {A B} (f : A -> list B) l, (forall a, In a l -> f a = []) -> flat_map f l = [].
Proof. induction l as [ | a l IH]; cbn; intros H; auto. rewrite (H a), IH by auto. reflexivity. Qed.
Lemma snug_inside : forall x y w path r v, snug w r -> contains_point r x y = false -> painted x y w path r v = [].
Proof.
  intros x y. induction w as [ | k p kids IH] using widget_nested; intros path r v S C.
  - cbn. rewrite C. reflexivity.
  - inversion S; subst; cbn [painted].
    + apply flat_map_nil. intros i I. rewrite paint_kid_eq. destruct (nth_error kids i) as [w | ] eqn:E; auto.
      apply nth_error_In in E. rewrite Forall_forall in *. eauto.
    + destruct seen; auto. rewrite paint_kid_eq. destruct (nth_error kids 0) as [w | ] eqn:E; auto.
      rewrite Forall_forall in IH. apply (IH w); [eapply nth_error_In; eauto | eauto | ].
      destruct (contains_point (centred vertical size r) x y) eqn:D; auto.
      match goal with B : 0 <= size <= _ |- _ => rewrite (centred_within _ _ _ B x y D) in C end. discriminate.
    + match goal with K : match k with KContainer => _ | _ => _ end |- _ => assert (B : boxy k) by exact K end.
      assert (E : paint_box x y k p (map (painted x y) kids) path r v = []).
      { destruct (paint_box_shape x y k p (map (painted x y) kids) path r v B) as [E | E]; auto.
        rewrite (clip_within k p r v B) in C; auto. discriminate. }
      destruct k; try destruct B; exact E.
Qed.

(** *** Lists with at most one hit *)
Lemma flat_map_single : forall {A B} (h : A -> bool) (f : A -> list B) l,
  (length (filter h l) <= 1)%nat -> (forall a, In a l -> h a = false -> f a = []) ->
  flat_map f l = match find h l with Some a => f a | None => [] end.
Proof.
  induction l as [ | a l IH]; intros L N; cbn [flat_map find]; auto.
  cbn [filter] in L. destruct (h a) eqn:E.
  - cbn [length] in L. assert (Z : flat_map f l = []).
    { apply flat_map_nil. intros b I. apply N; [right; exact I | ]. destruct (h b) eqn:Eb; auto. exfalso.
      assert (In b (filter h l)) by (apply filter_In; auto). destruct (filter h l); [contradiction | cbn in L; lia]. }
    rewrite Z. apply app_nil_r.
  - rewrite (N a) by (auto; left; reflexivity). cbn [app]. apply IH; auto. intros. apply N; auto. right; auto.
Qed.
Lemma in_turn_single : forall {A} (h : A -> bool) (g : A -> asking) l,
  (length (filter h l) <= 1)%nat ->
  in_turn (map g (filter h l)) = match find h l with Some a => g a | None => ([], false) end.
Proof.
  induction l as [ | a l IH]; intros L; cbn [filter map find]; [reflexivity | ].
  cbn [filter] in L. destruct (h a) eqn:E; [ | auto].
  cbn [length] in L. destruct (filter h l) eqn:F; [ | cbn in L; lia].
  cbn. destruct (g a) as [c [ | ]]; cbn; rewrite ?app_nil_r; reflexivity.
Qed.
Lemma filter_find : forall {A} (h f : A -> bool) l, (forall a, In a l -> h a = true -> f a = true) ->
  find h (filter f l) = find h l /\ length (filter h (filter f l)) = length (filter h l).
Proof.
  induction l as [ | a l IH]; intros H; cbn [filter find]; auto.
  destruct IH as [I J]; [intros; apply H; auto; right; auto | ].
  destruct (f a) eqn:F; cbn [find filter]; destruct (h a) eqn:E; cbn [length]; auto.
  pose proof (H a (or_introl eq_refl) E). congruence.
Qed.
Lemma hit_in_sight : forall x y c q, contains_point c x y = true -> hit x y q = true -> in_sight c q = true.
Proof.
  intros x y c q C H. unfold hit in H. rewrite contains_iff in *. unfold in_sight. rewrite !andb_true_iff, !Z.ltb_lt. lia.
Qed.

(** *** Painting and asking a box *)
Lemma painted_box : forall k p kids, boxy k -> forall x y, painted x y (Box k p kids) = paint_box x y k p (map (painted x y) kids).
Proof. intros k p kids B x y. destruct k; try destruct B; reflexivity. Qed.

Lemma paint_box_single : forall x y k p kids path r v, boxy k ->
  apart k p r v x y ->
  (forall i rg w, In (i, rg) (d_kids (draw k p r v)) -> nth_error kids i = Some w -> snug w rg) ->
  contains_point r x y = true ->
  paint_box x y k p (map (painted x y) kids) path r v =
  (if contains_point (d_clip (draw k p r v)) x y &&
      negb (under_bars (match k with KContainer => false | _ => true end) (p_bars p) (inner p r) (draw k p r v) x y)
   then match find (hit x y) (d_kids (draw k p r v)) with
        | Some q => paint_kid (map (painted x y) kids) path v q | None => [] end
   else []).
Proof.
  intros x y k p kids path r v B A S C. unfold paint_box.
  assert (E : (a_w r <=? 0) || (a_h r <=? 0) = false).
  { apply contains_iff in C. apply orb_false_iff. rewrite !Z.leb_gt. lia. }
  rewrite E. cbv zeta. set (d := draw k p r v) in *.
  destruct (contains_point (d_clip d) x y) eqn:CC; cbn [andb]; [ | reflexivity].
  destruct (negb _); [ | reflexivity].
  assert (N : forall q, In q (d_kids d) -> hit x y q = false -> paint_kid (map (painted x y) kids) path v q = []).
  { intros [i rg] I H. rewrite paint_kid_eq. destruct (nth_error kids i) as [w | ] eqn:W; auto.
    apply snug_inside; [eapply S; eauto | exact H]. }
  destruct (filter_find (hit x y) (in_sight (d_clip d)) (d_kids d)) as [F1 F2].
  { intros q _ H. exact (hit_in_sight x y (d_clip d) q CC H). }
  unfold apart in A. fold d in A.
  destruct k; try destruct B; (rewrite (flat_map_single (hit x y)); [rewrite ?F1; reflexivity | rewrite ?F2; exact A | ]).
  all: intros q I H; apply N; auto; try (apply filter_In in I; tauto).
Qed.

(** *** Events find the drawn children *)
Lemma bare_inner : forall p r, bare p -> contains_point r 0 0 = contains_point r 0 0 -> (0 < a_w r -> 0 < a_h r -> inner p r = r).
Proof.
  intros p r (A & B & C & D) _ W H. unfold inner.
  replace (a_w r <=? 0) with false by (symmetry; apply Z.leb_gt; lia).
  replace (a_h r <=? 0) with false by (symmetry; apply Z.leb_gt; lia). cbn [orb].
  rewrite A, B, C, D. destruct r as [rx ry rw rh]; cbn in *. f_equal; lia.
Qed.
Lemma settle_ext : forall n st m m' i last, (forall c, m c = m' c) -> settle n st m i last = settle n st m' i last.
Proof.
  induction n as [ | n IH]; intros st m m' i last E; cbn [settle]; auto.
  rewrite E. destruct (m' _) as [a b]. destruct (_ && _); auto.
Qed.
Lemma scroll_layout_view : forall p r v, same_view p r v -> scroll_layout p r (view_of r) = scroll_layout p r v.
Proof.
  intros p r v H. unfold scroll_layout, compute_layout. apply settle_ext. intros c. rewrite H. reflexivity.
Qed.
Lemma reclamp_offsets : forall s, offset_x (reclamp s) = Z.max (Z.min (offset_x s) (max_scroll_x s)) 0
  /\ offset_y (reclamp s) = Z.max (Z.min (offset_y s) (max_scroll_y s)) 0.
Proof. intros []; split; reflexivity. Qed.
(** Clamping an offset to a bound that is not negative. *)
Definition into (m o : Z) : Z := Z.max (Z.min o m) 0.
Lemma into_into : forall m n o, 0 <= m -> 0 <= n -> into m (into n o) = into (Z.min m n) o.
Proof. intros. unfold into. lia. Qed.
Definition room (a b : Z) : Z := Z.max (a - b) 0.
Lemma room_pos : forall a b, 0 <= room a b.
Proof. intros. unfold room. lia. Qed.
Lemma set_both_eq : forall s a b w h, set_viewport (set_virtual_size s a b) w h =
  Scroll (into (room a w) (into (room a (viewport_width s)) (offset_x s)))
         (into (room b h) (into (room b (viewport_height s)) (offset_y s))) a b w h.
Proof. reflexivity. Qed.
Lemma set_viewport_eq : forall s w h, set_viewport s w h =
  Scroll (into (room (virtual_width s) w) (offset_x s)) (into (room (virtual_height s) h) (offset_y s))
         (virtual_width s) (virtual_height s) w h.
Proof. reflexivity. Qed.
Lemma set_viewport_idem : forall s w h, set_viewport (set_viewport s w h) w h = set_viewport s w h.
Proof.
  intros s w h. rewrite !set_viewport_eq. cbn [offset_x offset_y virtual_width virtual_height viewport_width viewport_height].
  rewrite !into_into by apply room_pos. f_equal; f_equal; lia.
Qed.
Lemma offsets_idem2 : forall s a b w h, 
  set_viewport (set_virtual_size (set_viewport (set_virtual_size s a b) w h) a b) w h = set_viewport (set_virtual_size s a b) w h.
Proof.
  intros. rewrite !set_both_eq. cbn [offset_x offset_y virtual_width virtual_height viewport_width viewport_height].
  repeat rewrite into_into by (repeat apply Z.min_glb; apply room_pos). f_equal; f_equal; lia.
Qed.
Lemma record_idem : forall s l, record_layout (record_layout s l) l = record_layout s l.
Proof. intros s l. unfold record_layout. apply offsets_idem2. Qed.

Lemma no_bar_over_content : forall st i sv sh x y corner,
  0 <= b_size_v st -> 0 <= b_size_h st ->
  contains_point (content_region st i sv sh) x y = true ->
  forall d, d_v d = sv -> d_h d = sh -> under_bars corner st i d x y = false.
Proof.
  intros st i sv sh x y corner A B C d V H. apply contains_iff in C. unfold content_region in C. cbn [a_x a_y a_w a_h] in C.
  unfold under_bars, render_v, render_h. rewrite V, H.
  assert (Cv : sv = true -> contains_point (v_region st i sh) x y = false /\ contains_point (corner_region st i) x y = false).
  { intros ->. cbn [orb] in C. split; apply contains_not; unfold v_region, corner_region; cbn [a_x a_y a_w a_h]; destruct sh; lia. }
  assert (Ch : sh = true -> contains_point (h_region st i sv) x y = false).
  { intros ->. apply contains_not. unfold h_region. cbn [a_x a_y a_w a_h]. destruct sv; cbn [orb] in C; lia. }
  destruct sv, sh; cbn [andb orb]; rewrite ?andb_false_r; cbn [andb orb]; try reflexivity.
  all: try (destruct (Cv eq_refl) as [Cv1 Cv2]; rewrite ?Cv1, ?Cv2); try (rewrite (Ch eq_refl));
    rewrite ?andb_false_r; cbn [andb orb]; try reflexivity.
Qed.

(** Where a well-behaved box looks, and what it finds there. *)
Definition target (x y : Z) (k : kind) (p : pane) (r : area) (v : view) : option placement :=
  let d := draw k p r v in
  if contains_point r x y && contains_point (d_clip d) x y &&
     negb (under_bars (match k with KContainer => false | _ => true end) (p_bars p) (inner p r) d x y)
  then find (hit x y) (d_kids d) else None.

Lemma paint_target : forall x y k p kids path r v, boxy k -> sane p ->
  apart k p r v x y ->
  (forall i rg w, In (i, rg) (d_kids (draw k p r v)) -> nth_error kids i = Some w -> snug w rg) ->
  paint_box x y k p (map (painted x y) kids) path r v =
  match target x y k p r v with Some q => paint_kid (map (painted x y) kids) path v q | None => [] end.
Proof.
  intros x y k p kids path r v B SA A S. unfold target. cbv zeta.
  destruct (contains_point r x y) eqn:C; cbn [andb].
  - rewrite paint_box_single by auto. destruct (_ && _); reflexivity.
  - destruct (paint_box_shape x y k p (map (painted x y) kids) path r v B) as [E | E]; auto.
    rewrite (clip_within k p r v B SA x y E) in C. discriminate.
Qed.

Definition ask_box (x y : Z) (press : bool) (k : kind) (p : pane) (fs : list asker) : asker :=
  match k with
  | KContainer => ask_container x y p fs
  | KScrollable => ask_scrollable x y press p fs
  | KScreen => ask_screen x y press p fs
  | _ => ask_grid x y p fs
  end.
Lemma asked_box : forall x y ans pr k p kids, boxy k ->
  asked x y ans pr (Box k p kids) = ask_box x y pr k p (map (asked x y ans pr) kids).
Proof. intros. destruct k; try contradiction; reflexivity. Qed.

Lemma shift_zero : forall l, map (shift 0 0) l = l.
Proof.
  induction l as [ | [i [a b c d]] l IH]; cbn; auto. unfold shift at 1. cbn. rewrite !Z.sub_0_r, IH. reflexivity.
Qed.

Lemma bar_room : forall i s (b : bool), 0 <= s -> 0 < i -> Z.max (i - (if b then s else 0)) 0 = i -> b = true -> s = 0.
Proof. intros i s b A B C ->. lia. Qed.

Lemma ask_target : forall x y pr k p fs path r v, boxy k -> sane p -> same_view p r v -> drawn k p r v ->
  apart k p r v x y -> looks_right k p r v x y ->
  ask_box x y pr k p fs path r = match target x y k p r v with Some q => ask_kid fs path q | None => ([], false) end.
Proof.
  intros x y pr k p fs path r v B SA SV D A L. pose proof SA as (S1 & S2 & S3 & S4 & S5 & S6).
  destruct k; try destruct B; unfold target, ask_box; cbv zeta; unfold drawn, apart in *; cbn [draw looks_right] in *.
  - (* containers *)
    destruct L as (BA & CL & OX).
    unfold ask_container. destruct (contains_point r x y) eqn:C; [ | reflexivity]. cbn [andb].
    assert (W : 0 < a_w r /\ 0 < a_h r) by (apply contains_iff in C; lia).
    assert (I : inner p r = r) by (apply bare_inner; tauto).
    rewrite D, (SV r).
    unfold draw_container in *. rewrite I in *.
    destruct (p_extent p r (p_place p r v)) as [ew eh]. cbv zeta in *.
    set (s1 := set_viewport (set_virtual_size (p_scroll p) ew eh) (a_w r) (a_h r)) in *.
    assert (CC : container_content p s1 r = r).
    { revert CL. destruct (shows_v (p_bars p) s1 && _); [destruct (p_extent p _ _) | ]; cbn [d_clip]; auto. }
    rewrite CC in *. rewrite Z.ltb_irrefl, andb_false_r in *. cbn [d_clip d_kids d_scroll] in *.
    rewrite C. cbn [andb].
    replace (under_bars _ _ _ _ x y) with false.
    2:{ symmetry. unfold under_bars. cbn [d_v d_h andb orb].
        unfold container_content in CC.
        assert (HW : Z.max (a_w r - (if shows_v (p_bars p) s1 || b_stable (p_bars p) then b_size_v (p_bars p) else 0)) 0 = a_w r)
          by exact (f_equal a_w CC).
        assert (HH : Z.max (a_h r - (if shows_h (p_bars p) s1 || b_stable (p_bars p) then b_size_h (p_bars p) else 0)) 0 = a_h r)
          by exact (f_equal a_h CC).
        unfold render_v, render_h.
        destruct (shows_v (p_bars p) s1); cbn [orb andb] in *;
          [replace (0 <? b_size_v (p_bars p)) with false by (symmetry; apply Z.ltb_ge; lia); rewrite !andb_false_r; cbn [andb orb] | ];
        (destruct (shows_h (p_bars p) s1); cbn [orb andb] in *;
          [replace (0 <? b_size_h (p_bars p)) with false by (symmetry; apply Z.ltb_ge; lia); rewrite !andb_false_r; cbn [andb orb] | ]; reflexivity). }
    cbn [negb]. rewrite OX in *.
    rewrite in_turn_single by exact A. reflexivity.
  - (* scrollable containers *)
    unfold ask_scrollable. rewrite (scroll_layout_view p r v SV). unfold draw_scrollable in *. cbn [d_clip d_kids d_scroll d_v d_h] in *.
    set (l := scroll_layout p r v) in *.
    destruct (contains_point (l_content l) x y) eqn:C.
    + assert (U : under_bars true (p_bars p) (inner p r) (Drawing (l_content l)
        (map (shift (offset_x (record_layout (p_scroll p) l)) (offset_y (record_layout (p_scroll p) l))) (p_place p (l_content l) v))
        (record_layout (p_scroll p) l) (l_v l) (l_h l)) x y = false).
      { rewrite L in C. apply (no_bar_over_content (p_bars p) (inner p r) (l_v l) (l_h l)); auto. }
      assert (R : contains_point r x y = true).
      { apply (clip_within KScrollable p r v I SA). exact C. }
      rewrite U, R. cbn [andb negb].
      unfold under_bars in U. cbn [d_v d_h] in U. apply orb_false_iff in U. destruct U as [U _]. rewrite U, andb_false_r.
      unfold first_hit. rewrite (SV (l_content l)). reflexivity.
    + rewrite andb_false_r. cbn [andb]. destruct (pr && _); reflexivity.
  - (* screens *)
    destruct L as ((LV & LH) & LG & LO).
    unfold ask_screen. destruct (contains_point r x y) eqn:C; [ | reflexivity]. cbn [andb].
    assert (CW := clip_within KScreen p r v I SA). cbn [draw] in CW.
    unfold draw_screen in *.
    destruct (p_extent p (inner p r) (p_place p (inner p r) v)) as [ew eh]. cbv zeta in *. cbn [fst snd] in *.
    set (i := inner p r) in *. set (st := p_bars p) in *.
    set (sv := needed (b_over_y st) eh (a_h i)) in *. set (sh := needed (b_over_x st) ew (a_w i)) in *.
    set (c := screen_content st sv sh i) in *.
    set (again := sv && (a_w c <? a_w i)) in *.
    destruct (if again then p_extent p c (if again then p_place p c v else p_place p i v) else (ew, eh)) as [fw fh] eqn:F.
    cbn [d_clip d_kids d_scroll d_v d_h] in *.
    set (s := set_viewport (set_virtual_size (p_scroll p) fw fh) (a_w c) (a_h c)) in *.
    rewrite D. rewrite LV, LH. fold c. fold again.
    assert (SS : set_viewport s (a_w c) (a_h c) = s) by apply set_viewport_idem. rewrite SS.
    assert (K : map (screen_shift p s) (p_place p (if again then c else i) (view_of r)) =
                map (shift (offset_x s) (offset_y s)) (if again then p_place p c v else p_place p i v)).
    { rewrite SV. replace (p_place p (if again then c else i) v) with (if again then p_place p c v else p_place p i v) by (destruct again; reflexivity).
      apply map_ext_in. intros q Q. unfold screen_shift. destruct LO as [[O1 O2] | LO].
      - rewrite O1, O2. destruct (p_fixed p (fst q)); auto. destruct q as [j [qa qb qc qd]]. unfold shift. cbn. rewrite !Z.sub_0_r. reflexivity.
      - assert (FX : p_fixed p (fst q) = false) by exact (LO _ (in_map _ _ _ Q)). rewrite FX. reflexivity. }
    destruct (contains_point c x y) eqn:CC.
    + assert (U := no_bar_over_content st i sv sh x y true S5 S6 CC
        (Drawing c (map (shift (offset_x s) (offset_y s)) (if again then p_place p c v else p_place p i v)) s sv sh) eq_refl eq_refl).
      rewrite U. cbn [andb negb].
      unfold under_bars in U. cbn [d_v d_h] in U. apply orb_false_iff in U. destruct U as [U _]. rewrite U, andb_false_r.
      replace (contains_point (if again then c else i) x y) with true.
      2:{ symmetry. destruct again; [exact CC | ]. exact (content_within st i sv sh S5 S6 x y CC). }
      unfold first_hit. rewrite K. reflexivity.
    + cbn [andb]. destruct (pr && _); [reflexivity | ].
      replace (contains_point (if again then c else i) x y) with false; [reflexivity | ].
      symmetry. destruct again; [exact CC | ]. destruct (contains_point i x y); auto. symmetry. auto.
  - (* grids *)
    unfold ask_grid. destruct (contains_point r x y) eqn:C; [ | reflexivity]. cbn [andb].
    assert (W : 0 < a_w r /\ 0 < a_h r) by (apply contains_iff in C; lia).
    assert (I : inner p r = r) by (apply bare_inner; tauto).
    unfold draw_grid in *. rewrite I in *. cbn [d_clip d_kids] in *. rewrite C. cbn [andb].
    replace (under_bars _ _ _ _ x y) with false by reflexivity. cbn [negb].
    rewrite (SV r). rewrite in_turn_single by exact A. reflexivity.
Qed.

(** *** Whole trees *)
Lemma in_turn_answered : forall l, Forall (fun a => snd a = true -> fst a <> []) l -> snd (in_turn l) = true -> fst (in_turn l) <> [].
Proof.
  induction l as [ | [c [ | ]] l IH]; cbn [in_turn snd fst]; intros F H; [discriminate | | ].
  - inversion F; subst. cbn in *. auto.
  - inversion F; subst. destruct (in_turn l) as [c' b] eqn:E. cbn [fst snd] in *. subst b.
    intros N. apply app_eq_nil in N. destruct N as [_ N]. exact (IH H3 eq_refl N).
Qed.
Lemma find_true : forall {A} (f : A -> bool) l a, find f l = Some a -> In a l /\ f a = true.
Proof. intros. apply find_some in H. exact H. Qed.
Lemma asked_answered : forall x y ans pr w path r, snd (asked x y ans pr w path r) = true -> fst (asked x y ans pr w path r) <> [].
Proof.
  intros x y ans pr. induction w as [ | k p kids IH] using widget_nested; intros path r.
  - cbn. destruct (contains_point r x y); cbn; [discriminate | discriminate].
  - assert (K : forall path q, snd (ask_kid (map (asked x y ans pr) kids) path q) = true -> fst (ask_kid (map (asked x y ans pr) kids) path q) <> []).
    { intros path' [i rg]. rewrite ask_kid_eq. destruct (nth_error kids i) as [w | ] eqn:E; [ | discriminate].
      rewrite Forall_forall in IH. apply IH. eapply nth_error_In; eauto. }
    assert (KL : forall path l, Forall (fun a => snd a = true -> fst a <> []) (map (ask_kid (map (asked x y ans pr) kids) path) l)).
    { intros. apply Forall_forall. intros a I. apply in_map_iff in I. destruct I as (q & <- & _). apply K. }
    assert (KF : forall l, snd (first_hit x y (map (asked x y ans pr) kids) path l) = true -> fst (first_hit x y (map (asked x y ans pr) kids) path l) <> []).
    { intros l. unfold first_hit. destruct (find _ l); [apply K | discriminate]. }
    destruct k; cbn [asked].
    + unfold ask_container. destruct (contains_point r x y); [ | discriminate]. apply in_turn_answered. apply KL.
    + unfold ask_scrollable. destruct (pr && _); [discriminate | ]. destruct (contains_point _ x y); [apply KF | discriminate].
    + unfold ask_screen. destruct (contains_point r x y); [ | discriminate]. cbv zeta. destruct (pr && _); [discriminate | ].
      destruct (contains_point _ x y); [apply KF | discriminate].
    + unfold ask_grid. destruct (contains_point r x y); [ | discriminate]. apply in_turn_answered. apply KL.
    + unfold ask_app. apply in_turn_answered. apply Forall_forall. intros a I. apply in_map_iff in I. destruct I as (q & <- & _). apply K.
    + unfold ask_centre. destruct seen; [apply K | discriminate].
Qed.

Lemma hd_rev_nil : forall {A} (l : list A), hd_error (rev l) = None -> l = [].
Proof. intros A l H. destruct (rev l) eqn:E; [ | discriminate]. rewrite <- (rev_involutive l), E. reflexivity. Qed.

Lemma in_turn_top : forall {A} (g : A -> asking) (f : A -> list call) l,
  (forall a, In a l -> (snd (g a) = true -> fst (g a) <> []) /\ hd_error (fst (g a)) = hd_error (rev (f a)) /\ incl (fst (g a)) (f a)) ->
  hd_error (fst (in_turn (map g l))) = hd_error (flat_map (fun a => rev (f a)) l) /\
  incl (fst (in_turn (map g l))) (flat_map f l).
Proof.
  induction l as [ | a l IH]; intros H; cbn [map in_turn flat_map].
  - split; [reflexivity | apply incl_refl].
  - destruct (H a (or_introl eq_refl)) as (H1 & H2 & H3).
    destruct IH as [I1 I2]; [intros b I; apply H; right; exact I | ].
    destruct (g a) as [c b]. cbn [fst snd] in *. destruct b.
    + cbn [fst]. split.
      * destruct c as [ | e c]; [destruct (H1 eq_refl eq_refl) | ]. cbn [hd_error] in *.
        destruct (rev (f a)); [discriminate | ]. cbn in *. congruence.
      * apply incl_appl. exact H3.
    + destruct (in_turn (map g l)) as [c' b']. cbn [fst] in *. split.
      * destruct c as [ | e c].
        -- cbn [app]. cbn in H2. symmetry in H2. apply hd_rev_nil in H2. rewrite H2. cbn. exact I1.
        -- cbn in *. destruct (rev (f a)); [discriminate | ]. cbn in *. congruence.
      * apply incl_app; [apply incl_appl; exact H3 | apply incl_appr; exact I2].
Qed.
Lemma rev_flat_map : forall {A B} (f : A -> list B) l, rev (flat_map f l) = flat_map (fun a => rev (f a)) (rev l).
Proof.
  induction l as [ | a l IH]; cbn [flat_map rev]; auto. rewrite rev_app_distr, IH, flat_map_app. cbn. rewrite app_nil_r. reflexivity.
Qed.
Lemma incl_flat_rev : forall {A B} (f : A -> list B) l, incl (flat_map f (rev l)) (flat_map f l).
Proof. intros A B f l c I. apply in_flat_map in I. destruct I as (a & I & J). apply in_flat_map. exists a. split; [apply in_rev; exact I | exact J]. Qed.
Lemma up_to_block_none : forall b l, (forall i, b i = false) -> up_to_block b l = l.
Proof. induction l as [ | i l IH]; intros H; cbn; auto. rewrite H, IH; auto. Qed.

Theorem seen_first : forall v x y ans pr w path r, fair v x y w r ->
  hd_error (fst (asked x y ans pr w path r)) = hd_error (rev (painted x y w path r v)) /\
  incl (fst (asked x y ans pr w path r)) (painted x y w path r v).
Proof.
  intros v x y ans pr. induction w as [ | k p kids IH] using widget_nested; intros path r F.
  - cbn. destruct (contains_point r x y); cbn; split; auto; apply incl_refl.
  - rewrite Forall_forall in IH. inversion F; subst.
    + (* the application *)
      cbn [asked painted]. unfold ask_app. rewrite up_to_block_none by assumption.
      match goal with X : Forall _ kids |- _ => rewrite Forall_forall in X; rename X into FK end.
      destruct (in_turn_top (fun i => ask_kid (map (asked x y ans pr) kids) path (i, r))
                            (fun i => paint_kid (map (painted x y) kids) path v (i, r)) (rev (seq 0 (length kids)))) as [T1 T2].
      { intros i _. rewrite ask_kid_eq, paint_kid_eq. destruct (nth_error kids i) as [w | ] eqn:E.
        - split; [apply asked_answered | ]. apply IH; [eapply nth_error_In; eauto | ]. apply FK. eapply nth_error_In; eauto.
        - cbn. repeat split; auto; try discriminate. apply incl_refl. }
      rewrite T1, rev_flat_map. split; [reflexivity | ].
      eapply incl_tran; [exact T2 | apply incl_flat_rev].
    + (* centred *)
      cbn [asked painted]. unfold ask_centre. destruct seen; [ | cbn; split; auto; apply incl_refl].
      rewrite ask_kid_eq, paint_kid_eq. destruct (nth_error kids 0) as [w | ] eqn:E; [ | cbn; split; auto; apply incl_refl].
      apply IH; [eapply nth_error_In; eauto | auto].
    + (* boxes *)
      assert (B : boxy k) by (match goal with X : looks_right k _ _ _ _ _ |- _ => destruct k; try exact I; destruct X end).
      rewrite (asked_box x y ans pr k p kids B), (painted_box k p kids B).
      rewrite (ask_target x y pr k p _ path r v) by assumption.
      rewrite (paint_target x y k p kids path r v) by (auto; intros i rg w I W; match goal with X : forall i rg w, In _ _ -> _ |- _ => apply (X i rg w I W) end).
      unfold target. cbv zeta.
      destruct (contains_point r x y && contains_point (d_clip (draw k p r v)) x y && _); [ | cbn; split; auto; apply incl_refl].
      destruct (find (hit x y) (d_kids (draw k p r v))) as [[i rg] | ] eqn:E; [ | cbn; split; auto; apply incl_refl].
      apply find_true in E. destruct E as [I H].
      rewrite ask_kid_eq, paint_kid_eq. destruct (nth_error kids i) as [w | ] eqn:W; [ | cbn; split; auto; apply incl_refl].
      apply IH; [eapply nth_error_In; eauto | ].
      match goal with X : forall i rg w, In _ _ -> _ |- _ => apply (X i rg w I W) end. exact H.
Qed.

(** *** Asking stops at the first answer *)
Definition stops (ans : list nat -> bool) (a : asking) : Prop :=
  (snd a = false -> Forall (fun c => ans (fst c) = false) (fst a)) /\
  (snd a = true -> exists l c, fst a = l ++ [c] /\ Forall (fun c => ans (fst c) = false) l /\ ans (fst c) = true).
Lemma stops_nil : forall ans, stops ans ([], false).
Proof. intros. split; cbn; [constructor | discriminate]. Qed.
Lemma in_turn_stops : forall ans l, Forall (stops ans) l -> stops ans (in_turn l).
Proof.
  intros ans. induction l as [ | [c b] l IH]; intros F; cbn [in_turn]; [apply stops_nil | ].
  inversion F as [ | ? ? H1 H2]; subst. destruct b; [exact H1 | ].
  destruct (IH H2) as [I1 I2]. destruct (in_turn l) as [c' b']. destruct H1 as [J _]. cbn [fst snd] in *.
  specialize (J eq_refl). split; cbn [fst snd]; intros E.
  - apply Forall_app. auto.
  - destruct (I2 E) as (m & e & -> & M & A). exists (c ++ m), e. rewrite app_assoc. repeat split; auto. apply Forall_app. auto.
Qed.
Lemma asked_stops : forall x y ans pr w path r, stops ans (asked x y ans pr w path r).
Proof.
  intros x y ans pr. induction w as [ | k p kids IH] using widget_nested; intros path r.
  - cbn. destruct (contains_point r x y); [ | apply stops_nil]. split; cbn; intros E; [auto | ].
    exists [], (path, r). auto.
  - rewrite Forall_forall in IH.
    assert (K : forall path q, stops ans (ask_kid (map (asked x y ans pr) kids) path q)).
    { intros path' [i rg]. rewrite ask_kid_eq. destruct (nth_error kids i) as [w | ] eqn:E; [ | apply stops_nil].
      apply IH. eapply nth_error_In; eauto. }
    assert (KL : forall path l, Forall (stops ans) (map (ask_kid (map (asked x y ans pr) kids) path) l)).
    { intros. apply Forall_forall. intros a I. apply in_map_iff in I. destruct I as (q & <- & _). apply K. }
    assert (KF : forall l, stops ans (first_hit x y (map (asked x y ans pr) kids) path l)).
    { intros l. unfold first_hit. destruct (find _ l); [apply K | apply stops_nil]. }
    destruct k; cbn [asked].
    + unfold ask_container. destruct (contains_point r x y); [ | apply stops_nil]. apply in_turn_stops. apply KL.
    + unfold ask_scrollable. destruct (pr && _); [apply stops_nil | ]. destruct (contains_point _ x y); [apply KF | apply stops_nil].
    + unfold ask_screen. destruct (contains_point r x y); [ | apply stops_nil]. cbv zeta. destruct (pr && _); [apply stops_nil | ].
      destruct (contains_point _ x y); [apply KF | apply stops_nil].
    + unfold ask_grid. destruct (contains_point r x y); [ | apply stops_nil]. apply in_turn_stops. apply KL.
    + unfold ask_app. apply in_turn_stops. apply Forall_forall. intros a I. apply in_map_iff in I. destruct I as (q & <- & _). apply K.
    + unfold ask_centre. destruct seen; [apply K | apply stops_nil].
Qed.

(** *** Modal overlays *)
Lemma asked_under : forall x y ans pr w path r c, In c (fst (asked x y ans pr w path r)) -> exists rest, fst c = path ++ rest.
Proof.
  intros x y ans pr. induction w as [ | k p kids IH] using widget_nested; intros path r c.
  - cbn. destruct (contains_point r x y); cbn; [ | tauto]. intros [<- | []]. exists []. rewrite app_nil_r. reflexivity.
  - rewrite Forall_forall in IH.
    assert (K : forall q c, In c (fst (ask_kid (map (asked x y ans pr) kids) path q)) -> exists rest, fst c = path ++ rest).
    { intros [i rg] c'. rewrite ask_kid_eq. destruct (nth_error kids i) as [w | ] eqn:E; [ | cbn; tauto].
      intros I. apply IH in I; [ | eapply nth_error_In; eauto]. destruct I as [rest ->]. exists (i :: rest). rewrite <- app_assoc. reflexivity. }
    assert (T : forall l, Forall (fun a => forall c, In c (fst a) -> exists rest, fst c = path ++ rest) l ->
                forall c, In c (fst (in_turn l)) -> exists rest, fst c = path ++ rest).
    { induction l as [ | [d b] l IHl]; intros F c' I; cbn [in_turn] in I; [destruct I | ].
      inversion F; subst. destruct b; [cbn in *; auto | ]. destruct (in_turn l) as [d' b'] eqn:E. cbn [fst] in *.
      apply in_app_or in I. destruct I as [I | I]; eauto. }
    assert (TK : forall l, Forall (fun a => forall c, In c (fst a) -> exists rest, fst c = path ++ rest) (map (ask_kid (map (asked x y ans pr) kids) path) l)).
    { intros l. apply Forall_forall. intros a I. apply in_map_iff in I. destruct I as (q & <- & _). apply K. }
    assert (KF : forall l c, In c (fst (first_hit x y (map (asked x y ans pr) kids) path l)) -> exists rest, fst c = path ++ rest).
    { intros l c'. unfold first_hit. destruct (find _ l); [apply K | cbn; tauto]. }
    destruct k; cbn [asked].
    + unfold ask_container. destruct (contains_point r x y); [ | cbn; tauto]. apply T. apply TK.
    + unfold ask_scrollable. destruct (pr && _); [cbn; tauto | ]. destruct (contains_point _ x y); [apply KF | cbn; tauto].
    + unfold ask_screen. destruct (contains_point r x y); [ | cbn; tauto]. cbv zeta. destruct (pr && _); [cbn; tauto | ].
      destruct (contains_point _ x y); [apply KF | cbn; tauto].
    + unfold ask_grid. destruct (contains_point r x y); [ | cbn; tauto]. apply T. apply TK.
    + unfold ask_app. apply T. apply Forall_forall. intros a I. apply in_map_iff in I. destruct I as (q & <- & _). apply K.
    + unfold ask_centre. destruct seen; [apply K | cbn; tauto].
Qed.
Lemma in_turn_in : forall l c, In c (fst (in_turn l)) -> exists a, In a l /\ In c (fst a).
Proof.
  induction l as [ | [d b] l IH]; intros c I; cbn [in_turn] in I; [destruct I | ].
  destruct b; [exists (d, true); cbn in *; auto | ].
  destruct (in_turn l) as [d' b'] eqn:E. cbn [fst] in *. apply in_app_or in I. destruct I as [I | I].
  - exists (d, false). cbn. auto.
  - destruct (IH c I) as (a & A & B). exists a. cbn. auto.
Qed.
Lemma up_to_block_rev : forall b n i j, b i = true -> (i < n)%nat -> In j (up_to_block b (rev (seq 0 n))) -> (i <= j)%nat.
Proof.
  intros b. induction n as [ | n IH]; intros i j B L I; [lia | ].
  rewrite seq_S, rev_app_distr in I. cbn [rev app plus] in I. cbn [up_to_block] in I.
  destruct (b n) eqn:E.
  - destruct I as [<- | []]. lia.
  - destruct I as [<- | I]; [lia | ]. destruct (Nat.eq_dec i n) as [-> | N]; [congruence | ]. apply (IH i j); auto. lia.
Qed.

(** *** Drawing twice changes nothing *)
Definition scrolled_to (p : pane) (s : scroll) : pane :=
  Pane (p_left p) (p_top p) (p_right p) (p_bottom p) (p_place p) (p_extent p) (p_bars p) s (p_fixed p).
Lemma flags_of_sizes : forall st s s', virtual_height s = virtual_height s' -> viewport_height s = viewport_height s' ->
  virtual_width s = virtual_width s' -> viewport_width s = viewport_width s' ->
  shows_v st s = shows_v st s' /\ shows_h st s = shows_h st s'.
Proof. intros. unfold shows_v, shows_h, can_scroll_y, can_scroll_x. rewrite H, H0, H1, H2. auto. Qed.
Lemma sizes_set : forall s a b w h,
  virtual_width (set_viewport (set_virtual_size s a b) w h) = a /\ virtual_height (set_viewport (set_virtual_size s a b) w h) = b /\
  viewport_width (set_viewport (set_virtual_size s a b) w h) = w /\ viewport_height (set_viewport (set_virtual_size s a b) w h) = h.
Proof. intros. repeat split. Qed.

Lemma draws_settle : forall k p r v, boxy k -> 0 <= b_size_v (p_bars p) -> 0 <= b_size_h (p_bars p) ->
  0 < a_w r -> 0 < a_h r ->
  draw k (scrolled_to p (d_scroll (draw k p r v))) r v = draw k p r v.
Proof.
  intros k p r v B SV SH RW RH. destruct k; try destruct B; cbn [draw].
  - unfold draw_container.
    change (inner (scrolled_to p ?s) r) with (inner p r). 
    cbn [p_place p_extent p_bars p_scroll scrolled_to].
    set (i := inner p r).
    destruct (p_extent p i (p_place p i v)) as [ew eh]. cbv zeta.
    set (s1 := set_viewport (set_virtual_size (p_scroll p) ew eh) (a_w i) (a_h i)).
    set (c := container_content p s1 i).
    assert (IP : 0 <= a_w i /\ 0 <= a_h i).
    { unfold i, inner. destruct (_ || _); cbn [a_w a_h]; lia. }
    assert (CW : a_w c <= a_w i /\ a_h c <= a_h i).
    { unfold c, container_content. cbn [a_w a_h]. destruct (_ || _); destruct (_ || _); lia. }
    assert (G : forall s0, let t := set_viewport (set_virtual_size s0 ew eh) (a_w i) (a_h i) in
                shows_v (p_bars p) t = shows_v (p_bars p) s1 /\ shows_h (p_bars p) t = shows_h (p_bars p) s1).
    { intros s0 t. apply flags_of_sizes; reflexivity. }
    assert (GC : forall s0, container_content (scrolled_to p s0) (set_viewport (set_virtual_size s0 ew eh) (a_w i) (a_h i)) i = c).
    { intros s0. unfold c, container_content. cbn [p_bars scrolled_to]. destruct (G s0) as [-> ->]. reflexivity. }
    destruct (shows_v (p_bars p) s1 && (a_w c <? a_w i)) eqn:AG.
    + destruct (p_extent p c (p_place p c v)) as [fw fh] eqn:FE. cbn [d_scroll].
      set (s2 := set_viewport (set_virtual_size s1 fw fh) (a_w c) (a_h c)).
      rewrite GC. destruct (G s2) as [-> _]. rewrite AG, FE.
      assert (S2 : set_viewport (set_virtual_size (set_viewport (set_virtual_size s2 ew eh) (a_w i) (a_h i)) fw fh) (a_w c) (a_h c) = s2).
      { unfold s2, s1. rewrite !set_both_eq. cbn [offset_x offset_y virtual_width virtual_height viewport_width viewport_height].
        repeat rewrite into_into by (repeat apply Z.min_glb; apply room_pos).
        assert (room ew (a_w i) <= room ew (a_w c)) by (unfold room; lia).
        assert (room eh (a_h i) <= room eh (a_h c)) by (unfold room; lia).
        f_equal; f_equal; lia. }
      rewrite S2. reflexivity.
    + cbn [d_scroll]. rewrite GC. destruct (G s1) as [-> _]. rewrite AG.
      assert (S1 : set_viewport (set_virtual_size s1 ew eh) (a_w i) (a_h i) = s1) by apply offsets_idem2.
      rewrite S1. reflexivity.
  - unfold draw_scrollable. change (scroll_layout (scrolled_to p ?s) r v) with (scroll_layout p r v).
    cbn [p_place p_extent p_bars p_scroll scrolled_to d_scroll]. rewrite record_idem. reflexivity.
  - unfold draw_screen. change (inner (scrolled_to p ?s) r) with (inner p r).
    cbn [p_place p_extent p_bars p_scroll scrolled_to].
    set (i := inner p r).
    destruct (p_extent p i (p_place p i v)) as [ew eh]. cbv zeta.
    set (c := screen_content _ _ _ i).
    match goal with |- context [if ?b then p_extent p c ?k else (ew, eh)] => destruct (if b then p_extent p c k else (ew, eh)) as [fw fh] end.
    cbn [d_scroll]. rewrite offsets_idem2. reflexivity.
  - reflexivity.
Qed.
