(** Proofs about the scroll bar widget. *)
From Coq Require Import ZArith QArith Qround Qabs Qfield Lqa Lia List Bool.
From Verif Require Import Float32_Model Float32_Proofs Scroll_Model Scroll_Spec Scroll_Proofs Bars_Model Bars_Proofs Bars2_Proofs Slider_Model Slider_Spec.
Import ListNotations.
Open Scope Z_scope.

Section Any.
Variable rnd : Q -> Q.
Variable vertical : bool.
Notation after := (after rnd vertical).
Notation shown := (shown rnd).
Notation held := (held rnd vertical).
Notation lit := (lit rnd vertical).

Lemma mouse_keeps m x y r b :
  let b' := fst (on_mouse rnd m x y r b) in
  b_vertical b' = b_vertical b /\ b_virtual b' = b_virtual b /\ b_window b' = b_window b /\ b_position b' = b_position b.
Proof.
  unfold on_mouse. destruct (contains_point r x y); cbn [negb].
  - destruct (bounds rnd b r) as [s t]. destruct m; cbn [fst]; try (repeat split; fail).
    + destruct (is_grabbed b), (is_hover b); repeat split.
    + destruct ((s <=? _) && _); [ | destruct (_ <? s)]; repeat split.
    + destruct (b_look b); repeat split.
    + destruct (is_grabbed b); repeat split.
  - destruct (is_hover b); repeat split.
Qed.
Lemma keeps h : let b := after h in let s := shown h in
  b_vertical b = vertical /\ b_virtual b = r_virtual s /\ b_window b = r_window s /\ b_position b = r_position s.
Proof.
  induction h as [ | e past IH]; [repeat split | ]. cbn zeta in *.
  destruct IH as (V & A & B & C). cbn [Slider_Model.after]. destruct e as [m x y r | v w p | b | a | ]; cbn [step Slider_Spec.shown].
  - destruct (mouse_keeps m x y r (after past)) as (V' & A' & B' & C'). repeat split; congruence.
  - unfold update, small_change. cbn [r_virtual r_window r_position]. rewrite <- A, <- B, <- C.
    destruct (differs rnd (b_virtual (after past)) v), (differs rnd (b_window (after past)) w), (differs rnd (b_position (after past)) p); cbn; repeat split; auto.
  - unfold set_hover. destruct (is_grabbed (after past)), b, (is_hover (after past)), (is_normal (after past)); cbn; repeat split; auto.
  - unfold set_active. destruct a, (is_grabbed (after past)); cbn; repeat split; auto.
  - unfold clear_hover. destruct (is_grabbed (after past)), (is_normal (after past)); cbn; repeat split; auto.
Qed.
Lemma bounds_thumb h r : bounds rnd (after h) r = thumb rnd vertical h r.
Proof.
  destruct (keeps h) as (V & A & B & C). unfold bounds, thumb, track, length_along. rewrite V, A, B, C. reflexivity.
Qed.
Definition look_of (h : option Z) (l : bool) : look :=
  match h with Some g => Grabbed g | None => if l then Hover else Normal end.
Lemma looks h : b_look (after h) = look_of (held h) (lit h).
Proof.
  induction h as [ | e past IH]; [reflexivity | ].
  cbn [Slider_Model.after]. destruct e as [m x y r | v w p | b | a | ]; cbn [step].
  - unfold on_mouse. destruct (keeps past) as (V & _). rewrite V, bounds_thumb.
    cbn [Slider_Spec.held Slider_Spec.lit].
    unfold is_grabbed, is_hover. rewrite IH. fold (along vertical x y r).
    destruct (thumb rnd vertical past r) as [s t].
    destruct (contains_point r x y); cbn [negb andb].
    + destruct m; cbn [fst].
      * destruct (held past) as [g | ], (lit past); cbn; rewrite ?IH; reflexivity.
      * destruct ((s <=? along vertical x y r) && (along vertical x y r <? t)); cbn [fst b_look with_look look_of]; [reflexivity | ].
        destruct (along vertical x y r <? s); cbn [fst b_look dirtied]; exact IH.
      * destruct (look_of _ _); exact IH.
      * destruct (held past) as [g | ]; cbn; [reflexivity | ]. destruct (lit past); cbn; rewrite ?IH; reflexivity.
      * exact IH.
      * exact IH.
      * exact IH.
    + cbn [fst]. destruct (held past) as [g | ], (lit past), m; cbn; rewrite ?IH; reflexivity.
  - cbn [Slider_Spec.held Slider_Spec.lit]. unfold update. destruct (_ || _); exact IH.
  - cbn [Slider_Spec.held Slider_Spec.lit]. unfold set_hover, is_grabbed, is_hover, is_normal. rewrite IH.
    destruct (held past) as [g | ], (lit past), b; cbn; rewrite ?IH; reflexivity.
  - cbn [Slider_Spec.held Slider_Spec.lit]. unfold set_active, is_grabbed. destruct a; [exact IH | ]. rewrite IH.
    destruct (held past) as [g | ], (lit past); cbn; rewrite ?IH; reflexivity.
  - cbn [Slider_Spec.held Slider_Spec.lit]. unfold clear_hover, is_grabbed, is_normal. rewrite IH.
    destruct (held past) as [g | ], (lit past); cbn; rewrite ?IH; reflexivity.
Qed.
Lemma over_iff x y r : contains_point r x y = true <-> over x y r.
Proof. unfold contains_point, over. rewrite !andb_true_iff, !Z.leb_le, !Z.ltb_lt. tauto. Qed.
End Any.

(** *** Exact arithmetic *)
Definition ex (q : Q) : Q := q.
Lemma trunc_int q z : (q == inject_Z z)%Q -> trunc q = z.
Proof.
  intros E. unfold trunc. destruct (Qle_bool 0 q).
  - rewrite (Qfloor_comp _ _ E). apply Qfloor_Z.
  - rewrite (Qceiling_comp _ _ E). apply Qceiling_Z.
Qed.
Lemma qmax_l a b : (b <= a)%Q -> (qmax a b == a)%Q.
Proof.
  intros H. unfold qmax. destruct (Qle_bool a b) eqn:E; [ | reflexivity]. apply Qle_bool_iff in E. lra.
Qed.
Section Exact.
Variables (T : Z) (v w : Q).
Hypothesis HT : 1 <= T.
Hypothesis Hw : (0 < w)%Q.
Hypothesis Hv : (w < v)%Q.
Notation t := (inject_Z T).
Lemma t_pos : (1 <= t)%Q.
Proof. change 1%Q with (inject_Z 1). rewrite <- Zle_Qle. exact HT. Qed.
Lemma range_pos : (0 < t - w / v * t)%Q.
Proof.
  pose proof t_pos as PT.
  assert (E : (t - w / v * t == t * (v - w) / v)%Q) by (field; lra). rewrite E.
  apply Qlt_shift_div_l; [lra | ]. rewrite Qmult_0_l. nra.
Qed.
Lemma follows_lem b r start : b_virtual b = v -> b_window b = w -> track b r = T ->
  ~ (v == t)%Q -> (v <= w * t)%Q ->
  fst (thumb_bounds ex T v w (dragged_to ex b r start)) = start.
Proof.
  intros EV EW ET N W. pose proof t_pos as PT. pose proof range_pos as PR.
  unfold dragged_to. rewrite EV, EW, ET. unfold ex at 2 3 4 5 6 7.
  assert (V0 : Qeq_bool v 0 = false).
  { apply not_true_is_false. intros Q. apply Qeq_bool_iff in Q. lra. }
  assert (R0 : Qle_bool (t - w / v * t) 0 = false) by (apply not_le_bool; exact PR).
  rewrite V0, R0. cbn [orb]. unfold thumb_bounds.
  assert (V1 : Qle_bool v w = false) by (apply not_le_bool; exact Hv).
  assert (W0 : Qle_bool w 0 = false) by (apply not_le_bool; exact Hw).
  assert (V2 : Qle_bool v 0 = false) by (apply not_le_bool; lra).
  assert (V3 : Qeq_bool v t = false).
  { apply not_true_is_false. intros Q. apply Qeq_bool_iff in Q. auto. }
  assert (T0 : (T =? 0) = false) by (apply Z.eqb_neq; lia).
  rewrite V1, W0, V2, V3, T0. cbn [orb fst]. apply trunc_int. unfold thumb_position, thumb_size, ex.
  assert (S1 : (w / (v / t) == w / v * t)%Q) by (field; lra).
  assert (S2 : (1 <= w / v * t)%Q).
  { assert (E : (w / v * t == w * t / v)%Q) by (field; lra). rewrite E. apply Qle_shift_div_l; lra. }
  assert (S3 : (qmax (w / (v / t)) 1 == w / v * t)%Q).
  { rewrite qmax_l; [exact S1 | rewrite S1; exact S2]. }
  rewrite S3. field. split; [lra | ]. split.
  - assert (X : (t * v - w * t == t * (v - w))%Q) by ring. intros Q. rewrite X in Q. nra.
  - lra.
Qed.
Lemma drag_value b r start : b_virtual b = v -> b_window b = w -> track b r = T ->
  (dragged_to ex b r start == inject_Z start * v / t)%Q.
Proof.
  intros EV EW ET. pose proof t_pos as PT. pose proof range_pos as PR.
  unfold dragged_to. rewrite EV, EW, ET. unfold ex.
  assert (V0 : Qeq_bool v 0 = false).
  { apply not_true_is_false. intros Q. apply Qeq_bool_iff in Q. lra. }
  assert (R0 : Qle_bool (t - w / v * t) 0 = false) by (apply not_le_bool; exact PR).
  rewrite V0, R0. cbn [orb]. field. split; [lra | ]. split; [lra | ].
  assert (X : (t * v - w * t == t * (v - w))%Q) by ring. intros Q. rewrite X in Q. nra.
Qed.
Lemma range_lem b r start : b_virtual b = v -> b_window b = w -> track b r = T ->
  0 <= start -> (inject_Z start + w / v * t <= t)%Q ->
  (0 <= dragged_to ex b r start <= v - w)%Q.
Proof.
  intros EV EW ET S0 S1. pose proof t_pos as PT. rewrite (drag_value b r start EV EW ET).
  assert (P0 : (0 <= inject_Z start)%Q) by (change 0%Q with (inject_Z 0); rewrite <- Zle_Qle; exact S0).
  assert (E : ((inject_Z start + w / v * t) * v == inject_Z start * v + w * t)%Q) by (field; lra).
  assert (L : ((inject_Z start + w / v * t) * v <= t * v)%Q) by nra.
  split.
  - apply Qle_shift_div_l; [lra | ]. nra.
  - apply Qle_shift_div_r; [lra | ]. nra.
Qed.
End Exact.
Lemma clamp_some v hi : 0 <= hi -> clamp v 0 hi = Some (Z.min (Z.max v 0) hi).
Proof. intros H. unfold clamp. destruct (Z.ltb_spec hi 0); [lia | reflexivity]. Qed.
Lemma near_clamp wanted virt view off : off = Z.min (Z.max wanted 0) (Z.max (virt - view) 0) -> nearest wanted virt view off.
Proof. intros ->. unfold nearest, Scroll_Spec.in_range. split; [lia | ]. intros o H. lia. Qed.
Lemma handled m s : offsets_ok s -> exists s', handle_scroll m s = Some s' /\
  virtual_width s' = virtual_width s /\ virtual_height s' = virtual_height s /\
  viewport_width s' = viewport_width s /\ viewport_height s' = viewport_height s /\
  nearest (wanted_x m (offset_x s)) (virtual_width s) (viewport_width s) (offset_x s') /\
  nearest (wanted_y m (offset_y s)) (virtual_height s) (viewport_height s) (offset_y s').
Proof.
  destruct s as [ox oy vw vh pw ph]. unfold offsets_ok, Scroll_Spec.in_range. cbn. intros (X & Y).
  assert (Mx : 0 <= max_scroll_x (Scroll ox oy vw vh pw ph)) by (unfold max_scroll_x; lia).
  assert (My : forall o, 0 <= max_scroll_y (Scroll o oy vw vh pw ph)) by (intros; unfold max_scroll_y; lia).
  destruct m as [ | | | | x y]; cbn [handle_scroll].
  1-4: eexists; split; [reflexivity | ]; cbn; unfold max_scroll_x, max_scroll_y; cbn;
       repeat (split; [reflexivity | ]); split; apply near_clamp; cbn; lia.
  unfold scroll_to. destruct x as [x | ], y as [y | ].
  1-2: rewrite (clamp_some _ _ Mx); unfold set_x; cbn [offset_y virtual_width virtual_height viewport_width viewport_height].
  1: rewrite clamp_some by apply My.
  3: rewrite clamp_some by apply My.
  all: eexists; split; [reflexivity | ]; cbn; unfold max_scroll_x, max_scroll_y; cbn;
       repeat (split; [reflexivity | ]); split; apply near_clamp; cbn; lia.
Qed.
Section Whole.
Variable rnd : Q -> Q.
Hypothesis R : rounding rnd.
Lemma rnd_eq a b : (a == b)%Q -> (rnd a == rnd b)%Q.
Proof. intros E. apply Qle_antisym; apply (rnd_mono rnd R); rewrite E; apply Qle_refl. Qed.
Lemma differs_whole a b : whole a -> whole b -> differs rnd a b = false -> a = b.
Proof.
  intros (x & -> & X) (y & -> & Y) D. unfold differs in D. apply negb_false_iff, Qle_bool_iff in D.
  assert (E : (inject_Z x - inject_Z y == inject_Z (x - y))%Q).
  { unfold Z.sub. rewrite inject_Z_plus, inject_Z_opp. reflexivity. }
  rewrite (rnd_eq _ _ E) in D.
  assert (B : Z.abs (x - y) <= 2 ^ 24) by (change (2 ^ 24) with (2 ^ 23 + 2 ^ 23); lia).
  rewrite (rnd_int rnd R _ B) in D.
  destruct (Z.eq_dec x y) as [ -> | N]; [reflexivity | exfalso].
  assert (A : (Qabs (inject_Z (x - y)) == inject_Z (Z.abs (x - y)))%Q) by reflexivity.
  rewrite A in D. assert (G : (1 <= inject_Z (Z.abs (x - y)))%Q).
  { change 1%Q with (inject_Z 1). rewrite <- Zle_Qle. lia. }
  unfold epsilon in D. assert (L : (1 <= 1 # 8388608)%Q) by (eapply Qle_trans; eassumption).
  vm_compute in L. apply L. reflexivity.
Qed.
Lemma whole_lem h : Forall whole_report h ->
  shown rnd h = last_report h /\ whole (r_virtual (last_report h)) /\ whole (r_window (last_report h)) /\ whole (r_position (last_report h)).
Proof.
  induction h as [ | e past IH]; intros F.
  - split; [reflexivity | ]. cbn. split; [ | split].
    + exists 100. split; [reflexivity | lia].
    + exists 100. split; [reflexivity | lia].
    + exists 0. split; [reflexivity | lia].
  - inversion F as [ | ? ? W Fp]; subst. destruct (IH Fp) as (E & A & B & C).
    destruct e as [m x y r | v w p | b | a | ]; cbn [shown last_report]; try (split; [exact E | auto]).
    destruct W as (Wv & Ww & Wp). rewrite E. split; [ | cbn; auto].
    unfold small_change. cbn [r_virtual r_window r_position].
    destruct (last_report past) as [v0 w0 p0]. cbn [r_virtual r_window r_position] in *.
    destruct (differs rnd v0 v) eqn:D1; [reflexivity | ].
    destruct (differs rnd w0 w) eqn:D2; [reflexivity | ].
    destruct (differs rnd p0 p) eqn:D3; [reflexivity | ].
    apply differs_whole in D1, D2, D3; auto. subst. reflexivity.
Qed.
End Whole.
Lemma short_lem T v w b r start : 1 <= T -> (0 < w)%Q -> (w < v)%Q -> b_virtual b = v -> b_window b = w -> track b r = T ->
  (w * inject_Z T < v)%Q -> start < T -> (dragged_to ex b r start < v - w)%Q.
Proof.
  intros HT Hw Hv EV EW ET S L. rewrite (drag_value T v w HT Hw Hv b r start EV EW ET).
  pose proof (t_pos T HT) as PT.
  assert (P : (inject_Z start + 1 <= inject_Z T)%Q).
  { change 1%Q with (inject_Z 1). rewrite <- inject_Z_plus, <- Zle_Qle. lia. }
  apply Qlt_shift_div_r; [lra | ]. nra.
Qed.
