(** Properties of colours (C52, C56, C67, C68). *)
From Coq Require Import ZArith QArith Qround Qabs String List Bool Lia Lqa.
From Verif Require Import Text_Model Float32_Model Float32_Proofs Bars_Proofs Css_Proofs Fuzzy_Proofs Colour_Model Colour_Spec Colour_Proofs Colour2_Proofs Colour3_Proofs Colour4_Proofs.
Import ListNotations.
Notation length := List.length.
Open Scope Z_scope.
Open Scope list_scope.

(** [f32] arithmetic and exact arithmetic both satisfy what the theorems ask. *)
Example arithmetics : rounding rnd32 /\ accurate rnd32 /\ rounding exactly /\ accurate exactly.
Proof. split; [exact rounding_rnd32|]. split; [exact accurate_rnd32|]. split; [exact rounding_exact|exact accurate_exact]. Qed.

(** *** C52 Mixing *)
(** Whatever the factor and however the arithmetic rounds, every channel of a
    mixture lies between the same channels of the two colours. *)
Theorem C52_blend_between : forall rnd c d factor alpha k, rounding rnd -> bytes c -> bytes d -> between (get k c) (get k d) (get k (blend rnd c d factor alpha)).
Proof.
  intros rnd c d f al k R C D. unfold blend. qcase; [unfold between; lia|]. qcase; [unfold between; lia|]. destruct k; cbn [get rgba_of c_r c_g c_b]; apply mix_between; auto; try lra.
  - exact (C Red). - exact (D Red). - exact (C Green). - exact (D Green). - exact (C Blue). - exact (D Blue).
Qed.
Print Assumptions C52_blend_between.
Theorem C52_toward_between : forall rnd c d factor k, rounding rnd -> bytes c -> bytes d -> between (get k c) (get k d) (get k (blend_toward rnd c d factor)).
Proof.
  intros rnd c d f k R C D. unfold blend_toward. qcase; [unfold between; lia|]. qcase; [unfold between; lia|].
  assert (F0 : (0 <= rnd f)%Q) by (apply rnd_nonneg; auto; lra). assert (F1 : (rnd f <= 1)%Q) by (apply rnd_le_one; auto; lra).
  assert (S : forall x y, 0 <= x <= 255 -> 0 <= y <= 255 -> between x y (u8_clamp (lerp rnd y x (rnd f)))).
  { intros x y X Y. pose proof (mix_between rnd R y x (rnd f) Y X F0 F1) as M. unfold between in *. lia. }
  destruct k; cbn [get rgba_of c_r c_g c_b]; apply S; [exact (C Red)|exact (D Red)|exact (C Green)|exact (D Green)|exact (C Blue)|exact (D Blue)].
Qed.
Print Assumptions C52_toward_between.
(** Tinting uses the overlay's alpha, which has to be a proper alpha. *)
Theorem C52_tint_between : forall rnd c overlay k, rounding rnd -> bytes c -> bytes overlay -> (0 <= c_a overlay <= 1)%Q ->
  between (get k c) (get k overlay) (get k (tint rnd c overlay)) /\ between (get k c) (get k overlay) (get k (blend_over rnd overlay c)) /\
  c_a (tint rnd c overlay) = c_a c.
Proof.
  intros rnd c d k R C D [A0 A1]. assert (T : between (get k c) (get k d) (get k (tint rnd c d))).
  { unfold tint. destruct k; cbn [get rgba_of c_r c_g c_b]; apply mix_between; auto; [exact (C Red)|exact (D Red)|exact (C Green)|exact (D Green)|exact (C Blue)|exact (D Blue)]. }
  split; auto. split; auto. unfold blend_over. qcase; [|exact T]. unfold between. lia.
Qed.
Print Assumptions C52_tint_between.
(** An alpha above one overshoots. *)
Theorem C52_tint_alpha_refuted : exists c overlay, bytes c /\ bytes overlay /\ ~ between (get Red c) (get Red overlay) (get Red (tint rnd32 c overlay)).
Proof. exists (rgb_of 10 0 0), (rgba_of 20 0 0 2). split; [intros []; cbn; lia|]. split; [intros []; cbn; lia|]. unfold between. vm_compute. intuition congruence. Qed.
Print Assumptions C52_tint_alpha_refuted.
(** The ends: factor 0 is the first colour and factor 1 the second. *)
Theorem C52_ends : forall rnd c d alpha, rounding rnd -> bytes c -> bytes d ->
  (forall f, (f <= 0)%Q -> blend rnd c d f alpha = c) /\ (forall f, (1 <= f)%Q -> blend rnd c d f alpha = d) /\
  (forall f, (f <= 0)%Q -> blend_toward rnd c d f = d) /\ (forall f, (1 <= f)%Q -> blend_toward rnd c d f = c) /\
  ((c_a d == 0)%Q -> forall k, get k (tint rnd c d) = get k c) /\ ((c_a d == 1)%Q -> forall k, get k (tint rnd c d) = get k d) /\
  ((1 <= c_a c)%Q -> blend_over rnd c d = c) /\ ((c_a c == 0)%Q -> forall k, get k (blend_over rnd c d) = get k d).
Proof.
  intros rnd c d al R C D.
  assert (Z : forall a b, bytes a -> bytes b -> (c_a b == 0)%Q -> forall k, get k (tint rnd a b) = get k a).
  { intros a b A B E k. unfold tint. destruct k; cbn [get rgba_of c_r c_g c_b]; (apply u8_clamp_int; [|apply lerp_zero]); auto; try exact (A Red); try exact (B Red); try exact (A Green); try exact (B Green); try exact (A Blue); exact (B Blue). }
  assert (O : forall a b, bytes a -> bytes b -> (c_a b == 1)%Q -> forall k, get k (tint rnd a b) = get k b).
  { intros a b A B E k. unfold tint. destruct k; cbn [get rgba_of c_r c_g c_b]; (apply u8_clamp_int; [|apply lerp_one]); auto; try exact (A Red); try exact (B Red); try exact (A Green); try exact (B Green); try exact (A Blue); exact (B Blue). }
  repeat split.
  - intros f F. unfold blend. qcase; auto. lra.
  - intros f F. unfold blend. qcase; [lra|]. qcase; auto. lra.
  - intros f F. unfold blend_toward. qcase; [lra|]. qcase; auto. lra.
  - intros f F. unfold blend_toward. qcase; auto. lra.
  - apply Z; auto.
  - apply O; auto.
  - intros F. unfold blend_over. qcase; auto. lra.
  - intros F k. unfold blend_over. qcase; [lra|]. apply Z; auto.
Qed.
Print Assumptions C52_ends.
(** A larger factor never moves a channel back. *)
Theorem C52_monotone : forall rnd c d f g alpha beta k, rounding rnd -> bytes c -> bytes d -> (f <= g)%Q ->
  between (get k (blend rnd c d f alpha)) (get k d) (get k (blend rnd c d g beta)) /\ between (get k (blend_toward rnd c d g)) (get k d) (get k (blend_toward rnd c d f)).
Proof.
  assert (M : forall rnd x y f g, rounding rnd -> 0 <= x <= 255 -> 0 <= y <= 255 -> (0 <= f)%Q -> (f <= g)%Q -> (g <= 1)%Q -> between (u8_clamp (lerp rnd x y f)) y (u8_clamp (lerp rnd x y g))).
  { intros rnd x y f g R X Y F FG G. pose proof (mix_between rnd R x y f X Y ltac:(lra) ltac:(lra)) as A. pose proof (mix_between rnd R x y g X Y ltac:(lra) ltac:(lra)) as B.
    destruct (lerp_mono rnd R x y f g X Y FG) as [U V]. unfold between in *. destruct (Z_le_gt_dec x y); [pose proof (u8_clamp_mono _ _ (U ltac:(lia)))|pose proof (u8_clamp_mono _ _ (V ltac:(lia)))]; lia. }
  assert (M' : forall rnd x y f g, rounding rnd -> 0 <= x <= 255 -> 0 <= y <= 255 -> (0 <= f)%Q -> (f <= g)%Q -> (g <= 1)%Q -> between (u8_clamp (lerp rnd x y g)) x (u8_clamp (lerp rnd x y f))).
  { intros rnd x y f g R X Y F FG G. pose proof (mix_between rnd R x y f X Y ltac:(lra) ltac:(lra)) as A. pose proof (mix_between rnd R x y g X Y ltac:(lra) ltac:(lra)) as B.
    destruct (lerp_mono rnd R x y f g X Y FG) as [U V]. unfold between in *. destruct (Z_le_gt_dec x y); [pose proof (u8_clamp_mono _ _ (U ltac:(lia)))|pose proof (u8_clamp_mono _ _ (V ltac:(lia)))]; lia. }
  intros rnd c d f g al be k R C D FG. split.
  - pose proof (C52_blend_between rnd c d f al k R C D) as A. pose proof (C52_blend_between rnd c d g be k R C D) as B. revert A B. unfold blend.
    repeat qcase; intros A B; try (exfalso; lra); try (unfold between in *; lia). destruct k; cbn [get rgba_of c_r c_g c_b]; apply M; auto; try lra; [exact (C Red)|exact (D Red)|exact (C Green)|exact (D Green)|exact (C Blue)|exact (D Blue)].
  - pose proof (C52_toward_between rnd c d f k R C D) as A. pose proof (C52_toward_between rnd c d g k R C D) as B. revert A B. unfold blend_toward.
    repeat qcase; intros A B; try (exfalso; lra); try (unfold between in *; lia).
    assert (F0 : (0 <= rnd f)%Q) by (apply rnd_nonneg; auto; lra). assert (F1 : (rnd g <= 1)%Q) by (apply rnd_le_one; auto; lra). assert (FG' : (rnd f <= rnd g)%Q) by (apply (rnd_mono rnd R); auto).
    destruct k; cbn [get rgba_of c_r c_g c_b]; apply M'; auto; try lra; [exact (D Red)|exact (C Red)|exact (D Green)|exact (C Green)|exact (D Blue)|exact (C Blue)].
Qed.
Print Assumptions C52_monotone.
(** The mixture is the exact one cut to a whole number, up to a thousandth. *)
Theorem C52_accuracy : forall rnd c d factor alpha k, rounding rnd -> accurate rnd -> bytes c -> bytes d -> (0 < factor < 1)%Q ->
  let exact := part_way (get k c) (get k d) factor in
  (exact - 1 - (1 # 1000) < inject_Z (get k (blend rnd c d factor alpha)))%Q /\ (inject_Z (get k (blend rnd c d factor alpha)) <= exact + (1 # 1000))%Q.
Proof.
  intros rnd c d f al k R A C D [F0 F1]. cbv zeta. unfold blend. qcase; [lra|]. qcase; [lra|].
  destruct k; cbn [get rgba_of c_r c_g c_b]; apply mix_accuracy; auto; try lra; [exact (C Red)|exact (D Red)|exact (C Green)|exact (D Green)|exact (C Blue)|exact (D Blue)].
Qed.
Print Assumptions C52_accuracy.
(** It is cut and not rounded: three quarters of the way from 0 to 1 is 0. *)
Theorem C52_rounding_refuted : exists c d f, bytes c /\ bytes d /\ (0 < f < 1)%Q /\ (1 # 2 < part_way (get Red c) (get Red d) f - inject_Z (get Red (blend rnd32 c d f None)))%Q.
Proof. exists (rgb_of 0 0 0), (rgb_of 1 0 0), (3 # 4). split; [intros []; cbn; lia|]. split; [intros []; cbn; lia|]. split; [lra|]. vm_compute. reflexivity. Qed.
Print Assumptions C52_rounding_refuted.
(** A mixture forgets that a colour came from the terminal palette: such a
    colour mixed with itself becomes black. *)
Theorem C52_palette_refuted : exists c, c_ansi c = Some 9 /\ c_ansi (blend rnd32 c c (1 # 2) None) = None /\ inverse (inverse c) <> c.
Proof. exists (Rgba 0 0 0 1 (Some 9) false None). split; [reflexivity|]. split; [vm_compute; reflexivity|]. discriminate. Qed.
Print Assumptions C52_palette_refuted.
(** Inverting twice gives the channels and alpha back, and inverting exchanges
    dark and light. *)
Theorem C52_inverse : forall c, bytes c -> bytes (inverse c) /\ (forall k, get k (inverse (inverse c)) = get k c) /\ c_a (inverse c) = c_a c /\ (luma (inverse c) == 1 - luma c)%Q.
Proof.
  intros c B. split. { intros k. pose proof (B k). destruct k; cbn [get inverse rgba_of c_r c_g c_b] in *; lia. } split. { intros []; cbn [get inverse rgba_of c_r c_g c_b]; lia. } split; [reflexivity|].
  unfold luma, inverse. cbn [c_r c_g c_b rgba_of]. unfold Z.sub. rewrite !inject_Z_plus, !inject_Z_opp. change (inject_Z 255) with 255%Q. field.
Qed.
Print Assumptions C52_inverse.
(** Opacity never makes a colour more opaque and never changes its channels. *)
Theorem C52_opacity : forall rnd c opacity, rounding rnd -> (0 <= c_a c)%Q -> (rnd (c_a c) == c_a c)%Q -> (0 <= opacity)%Q ->
  (0 <= c_a (with_opacity rnd c opacity) <= c_a c)%Q /\ forall k, get k (with_opacity rnd c opacity) = get k c.
Proof.
  intros rnd c o R A E O. unfold with_opacity. qcase; [split; [lra|auto]|]. split; [|intros []; reflexivity]. cbn [with_alpha c_a].
  assert (O0 : (0 <= rnd o)%Q) by (apply rnd_nonneg; auto; lra). assert (O1 : (rnd o <= 1)%Q) by (apply rnd_le_one; auto; lra).
  split; [apply rnd_nonneg; auto; apply Qmult_le_0_compat; auto|]. rewrite <- E at 2. apply (rnd_mono rnd R). setoid_replace (c_a c) with (c_a c * 1)%Q at 2 by ring. rewrite !(Qmult_comm (c_a c)). apply Qmult_le_compat_r; auto.
Qed.
Print Assumptions C52_opacity.
Example C52_opacity_example : c_a (with_opacity rnd32 (rgba_of 1 2 3 (1 # 2)) (1 # 2)) = rnd32 (rnd32 (1 # 2) * (1 # 2)) /\ (rnd32 (1 # 2) == 1 # 2)%Q.
Proof. split; vm_compute; reflexivity. Qed.
Example C52_example : get Red (blend rnd32 (rgb_of 30 144 255) (rgb_of 0 0 0) (1 # 2) None) = 15 /\ get Blue (blend rnd32 (rgb_of 30 144 255) (rgb_of 0 0 0) (1 # 2) None) = 127 /\ bytes (rgb_of 30 144 255).
Proof. split; [vm_compute; reflexivity|]. split; [vm_compute; reflexivity|]. intros []; cbn; lia. Qed.

(** *** C67 Contrast *)
(** The automatic text colour differs in brightness from every background by at
    least a half. *)
Theorem C67_contrast : forall rnd c alpha, accurate rnd -> bytes c ->
  (1 # 2 <= Qabs (luma (contrast_text rnd c alpha) - luma c))%Q /\ (forall ratio, (1 <= ratio)%Q -> (1 # 2 <= Qabs (luma (contrasting rnd c ratio) - luma c))%Q).
Proof.
  intros rnd c al A B. destruct (dark_light rnd A c B) as [L D]. destruct (luma_range c B) as [L0 L1].
  assert (W : forall a, (luma (rgba_of 255 255 255 a) == 1)%Q) by (intros; reflexivity). assert (K : forall a, (luma (rgba_of 0 0 0 a) == 0)%Q) by (intros; reflexivity).
  split.
  - unfold contrast_text. qcase; [rewrite K; specialize (L E); rewrite Qabs_neg by lra; lra|]. rewrite W. specialize (D E). rewrite Qabs_pos by lra. lra.
  - intros ratio H. unfold contrasting. cbv zeta. destruct (Qle_bool 1 ratio) eqn:Q; [|apply Qle_bool_false in Q; lra]. clear Q.
    destruct (Qle_bool (1 # 2) (brightness rnd c)) eqn:E; [apply Qle_bool_iff in E|apply Qle_bool_false in E]; unfold rgb_of.
    + rewrite K. specialize (L E). rewrite Qabs_neg by lra. lra.
    + rewrite W. specialize (D E). rewrite Qabs_pos by lra. lra.
Qed.
Print Assumptions C67_contrast.
(** Softened to a fraction [ratio] of full contrast, a difference of half that
    fraction remains, up to 1/500 for the whole-number channels. *)
Theorem C67_soft : forall rnd c ratio, rounding rnd -> accurate rnd -> bytes c -> (0 <= ratio < 1)%Q ->
  bytes (contrasting rnd c ratio) /\ (ratio * (1 # 2) - (1 # 500) <= Qabs (luma (contrasting rnd c ratio) - luma c))%Q.
Proof.
  intros rnd c ratio R A B [R0 R1]. destruct (dark_light rnd A c B) as [L D]. destruct (luma_range c B) as [L0 L1].
  unfold contrasting. cbv zeta. destruct (Qle_bool 1 ratio) eqn:Q; [apply Qle_bool_iff in Q; lra|]. clear Q.
  set (k := if Qle_bool (1 # 2) (brightness rnd c) then 0 else 255). assert (K : k = 0 \/ k = 255) by (unfold k; destruct (Qle_bool _ _); auto).
  pose proof (contrast_mix rnd R A k (c_r c) ratio K (B Red) R0 ltac:(lra)) as X. pose proof (contrast_mix rnd R A k (c_g c) ratio K (B Green) R0 ltac:(lra)) as Y. pose proof (contrast_mix rnd R A k (c_b c) ratio K (B Blue) R0 ltac:(lra)) as Z. cbv zeta in X, Y, Z.
  set (x := u8_round _) in X. set (y := u8_round _) in Y. set (z := u8_round _) in Z.
  change (bytes (rgb_of x y z) /\ (ratio * (1 # 2) - (1 # 500) <= Qabs (luma (rgb_of x y z) - luma c))%Q).
  destruct X as (X & X1 & X2), Y as (Y & Y1 & Y2), Z as (Z & Z1 & Z2). split. { intros []; cbn; assumption. }
  assert (KQ : (inject_Z k == 0 /\ 1 # 2 <= luma c)%Q \/ (inject_Z k == 255 /\ luma c <= 1 # 2)%Q).
  { unfold k. destruct (Qle_bool (1 # 2) (brightness rnd c)) eqn:E; [apply Qle_bool_iff in E; left; split; [reflexivity|auto]|apply Qle_bool_false in E; right; split; [reflexivity|auto]]. }
  assert (M : (- (501 # 255000) <= luma (rgb_of x y z) - (inject_Z k * (1 # 255) * ratio + luma c * (1 - ratio)) /\ luma (rgb_of x y z) - (inject_Z k * (1 # 255) * ratio + luma c * (1 - ratio)) <= 501 # 255000)%Q).
  { unfold luma, rgb_of, rgba_of. cbn [c_r c_g c_b]. unfold Qdiv. change (/ 255)%Q with (1 # 255)%Q. split; lra. }
  clearbody x y z. set (lz := luma (rgb_of x y z)) in *. set (lm := luma c) in *. clearbody lz lm. destruct M as [M1 M2]. destruct KQ as [[K1 K2]|[K1 K2]]; rewrite K1 in M1, M2.
  - assert (H : ((1 # 2) * ratio <= lm * ratio)%Q) by (apply Qmult_le_compat_r; auto). assert (H2 : (- (lz - lm) <= Qabs (lz - lm))%Q) by (rewrite <- Qabs_opp; apply Qle_Qabs). lra.
  - assert (H : ((1 # 2) * ratio <= (1 - lm) * ratio)%Q) by (apply Qmult_le_compat_r; auto; lra). assert (H2 : (lz - lm <= Qabs (lz - lm))%Q) by (apply Qle_Qabs). lra.
Qed.
Print Assumptions C67_soft.
Example C67_example : contrasting rnd32 (rgb_of 30 144 255) (9 # 10) = rgb_of 233 244 255 /\ contrast_text rnd32 (rgb_of 128 128 128) 1 = rgb_of 0 0 0.
Proof. split; vm_compute; reflexivity. Qed.

(** *** C56 Hexadecimal colours *)
(** Two digits per channel, in either case and between blanks. *)
Theorem C56_long : forall rnd lc pf r1 r2 g1 g2 b1 b2 a b c d e f w, lower_ok lc -> blank w ->
  hex_char r1 a -> hex_char r2 b -> hex_char g1 c -> hex_char g2 d -> hex_char b1 e -> hex_char b2 f ->
  parse rnd lc pf (35 :: [a; b; c; d; e; f] ++ w) = Ok (rgb_of (16 * r1 + r2) (16 * g1 + g2) (16 * b1 + b2)) /\
  (forall a1 a2 g h, hex_char a1 g -> hex_char a2 h ->
     parse rnd lc pf (35 :: [a; b; c; d; e; f; g; h] ++ w) = Ok (rgba_of (16 * r1 + r2) (16 * g1 + g2) (16 * b1 + b2) (rnd (inject_Z (16 * a1 + a2) / inject_Z 255)%Q))).
Proof.
  intros rnd lc pf r1 r2 g1 g2 b1 b2 a b c d e f w L W A B C D E F.
  rewrite !(Z.mul_comm 16).
  split.
  - rewrite parse_hash by auto. rewrite trim_end_solid; auto; [exact (parse_hex6 rnd lc L r1 r2 g1 g2 b1 b2 _ _ _ _ _ _ A B C D E F)|].
    repeat constructor; [exact (proj1 (proj2 (proj2 (hex_char_digit _ _ A))))|exact (proj1 (proj2 (proj2 (hex_char_digit _ _ B))))|exact (proj1 (proj2 (proj2 (hex_char_digit _ _ C))))|exact (proj1 (proj2 (proj2 (hex_char_digit _ _ D))))|exact (proj1 (proj2 (proj2 (hex_char_digit _ _ E))))|exact (proj1 (proj2 (proj2 (hex_char_digit _ _ F))))].
  - intros a1 a2 g h G H. rewrite (Z.mul_comm 16 a1). rewrite parse_hash by auto. rewrite trim_end_solid; auto; [exact (parse_hex8 rnd lc L r1 r2 g1 g2 b1 b2 a1 a2 _ _ _ _ _ _ _ _ A B C D E F G H)|].
    repeat constructor; [exact (proj1 (proj2 (proj2 (hex_char_digit _ _ A))))|exact (proj1 (proj2 (proj2 (hex_char_digit _ _ B))))|exact (proj1 (proj2 (proj2 (hex_char_digit _ _ C))))|exact (proj1 (proj2 (proj2 (hex_char_digit _ _ D))))|exact (proj1 (proj2 (proj2 (hex_char_digit _ _ E))))|exact (proj1 (proj2 (proj2 (hex_char_digit _ _ F))))|exact (proj1 (proj2 (proj2 (hex_char_digit _ _ G))))|exact (proj1 (proj2 (proj2 (hex_char_digit _ _ H))))].
Qed.
Print Assumptions C56_long.
(** One digit per channel means the digit twice. *)
Theorem C56_short : forall rnd lc pf x y z a b c, lower_ok lc -> hex_char x a -> hex_char y b -> hex_char z c ->
  parse rnd lc pf [35; a; b; c] = parse rnd lc pf [35; a; a; b; b; c; c] /\
  parse rnd lc pf [35; a; b; c] = Ok (rgb_of (17 * x) (17 * y) (17 * z)) /\
  (forall w d, hex_char w d -> parse rnd lc pf [35; a; b; c; d] = parse rnd lc pf [35; a; a; b; b; c; c; d; d]).
Proof.
  intros rnd lc pf x y z a b c L A B C. pose proof (C56_long rnd lc pf x x y y z z a a b b c c [] L ltac:(constructor) A A B B C C) as [P Q]. cbn [app] in P, Q. rewrite P.
  assert (S : forall t, Forall (fun c => is_ws c = false) t -> trim_end t = t) by (intros t T; rewrite <- (app_nil_r t) at 1; apply trim_end_solid; [constructor|auto]).
  pose proof (proj1 (proj2 (proj2 (hex_char_digit _ _ A)))) as SA. pose proof (proj1 (proj2 (proj2 (hex_char_digit _ _ B)))) as SB. pose proof (proj1 (proj2 (proj2 (hex_char_digit _ _ C)))) as SC.
  assert (E3 : parse rnd lc pf [35; a; b; c] = Ok (rgb_of (x * 17) (y * 17) (z * 17))). { rewrite parse_hash by auto. rewrite S by (repeat constructor; auto). apply parse_hex3; auto. }
  rewrite E3. split; [f_equal; f_equal; lia|]. split; [f_equal; f_equal; lia|].
  intros w d D. rewrite (Q w w d d D D). rewrite parse_hash by auto. rewrite S by (repeat constructor; auto; exact (proj1 (proj2 (proj2 (hex_char_digit _ _ D))))). rewrite (parse_hex4 rnd lc L x y z w) by auto.
  replace (16 * x + x) with (x * 17) by lia. replace (16 * y + y) with (y * 17) by lia. replace (16 * z + z) with (z * 17) by lia. replace (16 * w + w) with (w * 17) by lia. reflexivity.
Qed.
Print Assumptions C56_short.
(** What follows '#' is accepted exactly when it is 3, 4, 6 or 8 hexadecimal
    digits, and otherwise it is an error, never a crash. *)
Theorem C56_accepts : forall rnd lc pf s, lower_ok lc -> scalar s ->
  ((exists c, parse rnd lc pf (35 :: s) = Ok c) <-> In (length (trim_end s)) [3; 4; 6; 8]%nat /\ Forall (fun c => exists d, hex_char d c) (trim_end s)) /\
  parse rnd lc pf (35 :: s) <> Panic.
Proof.
  intros rnd lc pf s L S. rewrite parse_hash by auto. assert (S' : scalar (trim_end s)).
  { unfold trim_end. apply Forall_rev. assert (G : forall t, scalar t -> scalar (trim_start t)) by (induction t as [|c t IH]; intros H; auto; cbn; destruct (is_ws c); auto; apply IH; inversion H; auto). apply G. apply Forall_rev. auto. }
  set (t := trim_end s) in *. clearbody t. clear s S. split; [|apply parse_hex_panic]. split.
  - intros (c & H). apply parse_hex_all in H; [|exact pf]. destruct H as [H1 H2]. destruct (lower_hex lc L t S' H2) as [A B]. split; auto. rewrite <- B. exact H1.
  - intros [N H]. destruct t as [|c1 [|c2 [|c3 [|c4 [|c5 [|c6 [|c7 [|c8 [|c9 r]]]]]]]]]; cbn [length In] in N; try (exfalso; lia);
    repeat match goal with H : Forall _ (_ :: _) |- _ => let d := fresh "d" in let D := fresh "D" in pose proof (Forall_inv H) as [d D]; apply Forall_inv_tail in H end.
    + eexists. eapply parse_hex3; eauto. + eexists. eapply parse_hex4; eauto. + eexists. eapply parse_hex6; eauto. + eexists. eapply parse_hex8; eauto.
Qed.
Print Assumptions C56_accepts.
(** A real lower-casing meets the hypothesis (here: leaving other letters alone). *)
Definition sample_lc (c : char) : text := [ascii_lc c].
Example sample_lc_ok : lower_ok sample_lc.
Proof.
  split; [reflexivity|]. intros c C. exists c. split. { left. unfold ascii_lc. destruct (Z.leb_spec 65 c), (Z.leb_spec c 90); cbn; auto; lia. } intros d [H|H]; lia.
Qed.
Example C56_example : parse rnd32 sample_lc (fun _ => None) (str "#1e90FF") = Ok (rgb_of 30 144 255) /\ parse rnd32 sample_lc (fun _ => None) (str " #f0C ") = Ok (rgb_of 255 0 204) /\
  parse rnd32 sample_lc (fun _ => None) (str "#12345") = Err /\ hex_char 14 101.
Proof. split; [vm_compute; reflexivity|]. split; [vm_compute; reflexivity|]. split; [vm_compute; reflexivity|]. right. lia. Qed.

(** *** C68 Functions and names *)
(** Decimal channels inside rgb() or rgba(), in any case and with any blanks,
    optionally with an alpha. *)
Theorem C68_rgb : forall rnd lc pf w1 w2 hd name p1 q1 p2 q2 p3 q3 r g b x y z, lower_ok lc -> blank w1 -> blank w2 ->
  In name (map str ["rgb"; "rgba"]%string) -> map ascii_lc hd = name -> Forall (fun c => 65 <= c <= 122) hd ->
  blank p1 -> blank q1 -> blank p2 -> blank q2 -> blank p3 -> blank q3 -> decimal r x -> decimal g y -> decimal b z -> r <= 255 -> g <= 255 -> b <= 255 ->
  let body := (p1 ++ x ++ q1) ++ 44 :: (p2 ++ y ++ q2) ++ 44 :: p3 ++ z ++ q3 in
  parse rnd lc pf (w1 ++ (hd ++ 40 :: body ++ [41]) ++ w2) = Ok (rgb_of r g b) /\
  (forall p4 q4 t a, blank p4 -> blank q4 -> t <> [] -> numeric t -> pf t = Some a -> parse rnd lc pf (w1 ++ (hd ++ 40 :: (body ++ 44 :: p4 ++ t ++ q4) ++ [41]) ++ w2) = Ok (rgba_of r g b a)).
Proof.
  intros rnd lc pf w1 w2 hd name p1 q1 p2 q2 p3 q3 r g b x y z L W1 W2 N M A P1 Q1 P2 Q2 P3 Q3 X Y Z HR HG HB body.
  pose proof (decimal_word _ _ X) as WX. pose proof (decimal_word _ _ Y) as WY. pose proof (decimal_word _ _ Z) as WZ.
  assert (CL : ~ In 40 name /\ ~ In 41 name) by (apply (name_clean hd); auto; cbn [map In] in *; intuition). destruct CL as [C1 C2].
  assert (NP : exists rr, name = str "rgb" ++ rr). { cbn [map In] in N. destruct N as [<- |[<- |[]]]; [exists []|exists (str "a")]; reflexivity. } destruct NP as (rr & NP).
  split.
  - assert (J : body = joined [padded p1 x q1; padded p2 y q2; padded p3 z q3]) by reflexivity. rewrite J.
    destruct (body_ok [padded p1 x q1; padded p2 y q2; padded p3 z q3]) as (B1 & B2 & B3); [repeat constructor; apply padded_chars; auto|discriminate|].
    destruct (parse_func rnd lc pf L w1 w2 hd name _ W1 W2 M A B1) as [PR _]. rewrite (PR rr NP). unfold parse_rgb_func. rewrite parens_content by auto. cbn [bind]. rewrite B3. cbn [map].
    rewrite !padded_trim by auto. rewrite (parse_u8_ok r x), (parse_u8_ok g y), (parse_u8_ok b z) by auto. reflexivity.
  - intros p4 q4 t a P4 Q4 TN TT PF. assert (J : body ++ 44 :: p4 ++ t ++ q4 = joined [padded p1 x q1; padded p2 y q2; padded p3 z q3; padded p4 t q4]).
    { unfold body. cbn [joined]. unfold padded. rewrite <- !app_assoc. cbn [app]. rewrite <- !app_assoc. cbn [app]. rewrite <- !app_assoc. reflexivity. } rewrite J.
    pose proof (numeric_word t TN TT) as WT.
    destruct (body_ok [padded p1 x q1; padded p2 y q2; padded p3 z q3; padded p4 t q4]) as (B1 & B2 & B3); [repeat constructor; apply padded_chars; auto|discriminate|].
    destruct (parse_func rnd lc pf L w1 w2 hd name _ W1 W2 M A B1) as [PR _]. rewrite (PR rr NP). unfold parse_rgb_func. rewrite parens_content by auto. cbn [bind]. rewrite B3. cbn [map].
    rewrite !padded_trim by auto. rewrite (parse_u8_ok r x), (parse_u8_ok g y), (parse_u8_ok b z) by auto. cbn [bind alpha_part]. unfold parse_f32. rewrite PF. reflexivity.
Qed.
Print Assumptions C68_rgb.
(** hsl() follows the CSS definition: with exact arithmetic, for hues from -240
    to 600 degrees, each channel is the nearest whole number. *)
Theorem C68_hsl : forall lc pf w1 w2 hd name p1 q1 p2 q2 p3 q3 x y z h s l, lower_ok lc -> blank w1 -> blank w2 ->
  In name (map str ["hsl"; "hsla"]%string) -> map ascii_lc hd = name -> Forall (fun c => 65 <= c <= 122) hd ->
  blank p1 -> blank q1 -> blank p2 -> blank q2 -> blank p3 -> blank q3 -> x <> [] -> y <> [] -> z <> [] -> numeric x -> numeric y -> numeric z ->
  pf x = Some h -> pf y = Some s -> pf z = Some l -> (-(240) <= h <= 600)%Q -> (0 <= s <= 100)%Q -> (0 <= l <= 100)%Q ->
  exists c, parse exactly lc pf (w1 ++ (hd ++ 40 :: ((p1 ++ x ++ q1) ++ 44 :: (p2 ++ (y ++ [37]) ++ q2) ++ 44 :: p3 ++ (z ++ [37]) ++ q3) ++ [41]) ++ w2) = Ok c /\
    c_a c = 1%Q /\ forall k, 0 <= get k c <= 255 /\ (Qabs (inject_Z (get k c) - 255 * css_hsl k h (s / 100) (l / 100)) <= 1 # 2)%Q.
Proof.
  intros lc pf w1 w2 hd name p1 q1 p2 q2 p3 q3 x y z h s l L W1 W2 N M A P1 Q1 P2 Q2 P3 Q3 X Y Z NX NY NZ PX PY PZ [H0 H1] [S0 S1] [L0 L1].
  pose proof (numeric_word x X NX) as WX. pose proof (percent_word y (numeric_word y Y NY)) as WY. pose proof (percent_word z (numeric_word z Z NZ)) as WZ.
  assert (CL : ~ In 40 name /\ ~ In 41 name) by (apply (name_clean hd); auto; cbn [map In] in *; intuition). destruct CL as [C1 C2].
  assert (NP : exists rr, name = str "hsl" ++ rr). { cbn [map In] in N. destruct N as [<- |[<- |[]]]; [exists []|exists (str "a")]; reflexivity. } destruct NP as (rr & NP).
  destruct (body_ok [padded p1 x q1; padded p2 (y ++ [37]) q2; padded p3 (z ++ [37]) q3]) as (B1 & B2 & B3); [repeat constructor; apply padded_chars; auto|discriminate|].
  change ((p1 ++ x ++ q1) ++ 44 :: (p2 ++ (y ++ [37]) ++ q2) ++ 44 :: p3 ++ (z ++ [37]) ++ q3) with (joined [padded p1 x q1; padded p2 (y ++ [37]) q2; padded p3 (z ++ [37]) q3]).
  destruct (parse_func exactly lc pf L w1 w2 hd name _ W1 W2 M A B1) as [_ PH]. rewrite (PH rr NP). unfold parse_hsl_func. rewrite parens_content by auto. cbn [bind]. rewrite B3. cbn [map]. rewrite !padded_trim by auto.
  assert (TP : forall t, numeric t -> trim_end_char 37 (t ++ [37]) = t).
  { intros t T. unfold trim_end_char. rewrite rev_app_distr. cbn [rev app trim_start_char]. rewrite Z.eqb_refl. assert (T' : numeric (rev t)) by (apply Forall_rev; exact T). destruct (rev t) as [|c u] eqn:E; [apply (f_equal (@rev _)) in E; rewrite rev_involutive in E; exact (eq_sym E)|].
    cbn [trim_start_char]. destruct (Z.eqb_spec c 37) as [->|]. { inversion T' as [|? ? C _]; subst. destruct C as [C|C]; [discriminate C|lia]. } rewrite <- E. apply rev_involutive. }
  unfold parse_f32, parse_percentage. rewrite PX, !TP by auto. rewrite PY, PZ. cbn [bind alpha_part].
  destruct (hsl_to_rgb exactly h (s / 100) (l / 100)) as [[r g] b] eqn:E. exists (rgba_of r g b 1). split; [reflexivity|]. split; [reflexivity|].
  unfold hsl_to_rgb in E. pose proof (hsl_css h (s / 100) (l / 100) H0 H1) as C. destruct (hsl_channels exactly h (s / 100) (l / 100)) as [[cr cg] cb]. injection E as <- <- <-. destruct C as (CR & CG & CB).
  assert (SD : (0 <= s / 100 /\ s / 100 <= 1)%Q) by (unfold Qdiv; change (/ 100)%Q with (1 # 100)%Q; lra). assert (LD : (0 <= l / 100 /\ l / 100 <= 1)%Q) by (unfold Qdiv; change (/ 100)%Q with (1 # 100)%Q; lra).
  assert (G : forall k q, (q == css_hsl k h (s / 100) (l / 100))%Q -> 0 <= u8_round (q * 255)%Q <= 255 /\ (Qabs (inject_Z (u8_round (q * 255)) - 255 * css_hsl k h (s / 100) (l / 100)) <= 1 # 2)%Q).
  { intros k q E. destruct (css_range k h (s / 100) (l / 100)) as [V0 V1]; try tauto. destruct (u8_round_close (q * 255)) as (U1 & U2 & U3); try lra. split; auto. apply Qabs_Qle_condition. lra. }
  intros []; cbn [get rgba_of c_r c_g c_b]; apply G; auto.
Qed.
Print Assumptions C68_hsl.
(** Two turns of the colour wheel are not no turn: hsl(720, 100%, 50%) is
    black, not red. *)
Theorem C68_hue_refuted : hsl_to_rgb exactly 0 1 (1 # 2) = (255, 0, 0) /\ hsl_to_rgb exactly 360 1 (1 # 2) = (255, 0, 0) /\ hsl_to_rgb exactly 720 1 (1 # 2) = (0, 0, 0) /\
  hsl_to_rgb rnd32 720 1 (1 # 2) = (0, 0, 0).
Proof. repeat split; vm_compute; reflexivity. Qed.
Print Assumptions C68_hue_refuted.
(** Every name of the table is read in any case, with blanks around it, as its
    own colour. *)
Theorem C68_names : forall rnd lc pf w1 w2 t n r g b, lower_ok lc -> blank w1 -> blank w2 -> In (n, (r, g, b)) names -> map ascii_lc t = str n -> scalar t ->
  parse rnd lc pf (w1 ++ t ++ w2) = Ok (rgb_of r g b).
Proof.
  intros rnd lc pf w1 w2 t n r g b L W1 W2 I M S. pose proof names_found as F. pose proof names_plain as P. rewrite forallb_forall in F, P. specialize (F _ I). specialize (P _ I). cbn [fst snd] in F, P.
  rewrite !andb_true_iff, !negb_true_iff in P. destruct P as (((((P1 & P2) & P3) & P4) & P5) & P6).
  assert (A : Forall (fun c => 65 <= c <= 122 /\ c <> 35) t).
  { rewrite <- M in P6. clear - P6. induction t as [|c t IH]; [constructor|]. cbn in P6. apply andb_true_iff in P6. destruct P6 as [C P6]. constructor; [|apply IH; auto]. apply andb_true_iff in C. rewrite !Z.leb_le in C. unfold ascii_lc in C. destruct (Z.leb_spec 65 c), (Z.leb_spec c 90); cbn in C; lia. }
  assert (N : t <> []) by (intros ->; cbn in M; rewrite <- M in P5; discriminate).
  destruct (solid_ends t N) as [E1 E2]. { eapply Forall_impl; [|exact A]. intros c C. unfold is_ws. cbn beta in C. rewrite !orb_false_iff, !andb_false_iff, !Z.leb_gt, !Z.eqb_neq. lia. }
  unfold parse. rewrite trim_pad by auto. assert (Lo : lower lc t = str n). { rewrite lower_ascii; auto. eapply Forall_impl; [|exact A]. intros c C. cbn beta in *. lia. }
  destruct t as [|c t]; [congruence|]. cbv zeta iota. rewrite Lo, P1, P2, P3, P4. inversion A as [|? ? [_ C] _]; subst. apply Z.eqb_neq in C. rewrite C.
  unfold parse_named. destruct (find_name (str n) names) as [[[x y] z]|]; [|discriminate]. rewrite !andb_true_iff, !Z.eqb_eq in F. destruct F as [[-> ->] ->]. reflexivity.
Qed.
Print Assumptions C68_names.
(** The table is that of CSS: each of its names is read as its CSS colour, and
    any other word without a function or '#' is refused. *)
Theorem C68_css_names : forall rnd lc pf w1 w2 t n h, lower_ok lc -> blank w1 -> blank w2 -> In (n, h) css_names -> map ascii_lc t = str n -> scalar t ->
  exists r g b, hex_bytes (str h) = (r, g, b) /\ 0 <= r <= 255 /\ 0 <= g <= 255 /\ 0 <= b <= 255 /\ parse rnd lc pf (w1 ++ t ++ w2) = Ok (rgb_of r g b).
Proof.
  intros rnd lc pf w1 w2 t n h L W1 W2 I M S.
  assert (A : forallb (fun nh => match find (fun e => String.eqb (fst e) (fst nh)) names with Some (_, (r, g, b)) => let '(x, y, z) := hex_bytes (str (snd nh)) in
     (r =? x) && (g =? y) && (b =? z) && (0 <=? r) && (r <=? 255) && (0 <=? g) && (g <=? 255) && (0 <=? b) && (b <=? 255) | None => false end) css_names = true) by (vm_compute; reflexivity).
  rewrite forallb_forall in A. specialize (A _ I). cbn [fst snd] in A.
  destruct (find _ names) as [[n' [[r g] b]]|] eqn:F; [|discriminate]. apply find_some in F. destruct F as [F1 F2]. cbn [fst] in F2. apply String.eqb_eq in F2. subst n'.
  destruct (hex_bytes (str h)) as [[x y] z]. rewrite !andb_true_iff, !Z.eqb_eq, !Z.leb_le in A. destruct A as ((((((((-> & ->) & ->) & ?) & ?) & ?) & ?) & ?) & ?).
  exists x, y, z. repeat (split; [auto|]). exact (C68_names rnd lc pf w1 w2 t n x y z L W1 W2 F1 M S).
Qed.
Print Assumptions C68_css_names.
Theorem C68_other_names : forall rnd lc pf t, let w := lower lc (trim t) in
  (forall n h, In (n, h) css_names -> w <> str n) -> w <> str "auto" -> w <> str "transparent" -> (forall r, trim t <> 35 :: r) ->
  (forall r, w <> str "rgb" ++ r) -> (forall r, w <> str "hsl" ++ r) -> parse rnd lc pf t = Err.
Proof.
  intros rnd lc pf t w N A T H R S. unfold parse. fold w. destruct (trim t) as [|c rest] eqn:E; [reflexivity|].
  replace (text_eqb w (str "auto")) with false by (symmetry; apply not_true_iff_false; intros X; apply text_eqb_eq in X; auto).
  replace (text_eqb w (str "transparent")) with false by (symmetry; apply not_true_iff_false; intros X; apply text_eqb_eq in X; auto).
  destruct (Z.eqb_spec c 35) as [-> |_]; [destruct (H rest); reflexivity|].
  replace (starts_with w (str "rgb")) with false by (symmetry; apply not_true_iff_false; intros X; apply starts_with_spec in X; destruct X as [r X]; exact (R r X)).
  replace (starts_with w (str "hsl")) with false by (symmetry; apply not_true_iff_false; intros X; apply starts_with_spec in X; destruct X as [r X]; exact (S r X)).
  unfold parse_named. destruct (find_name w names) as [[[r g] b]|] eqn:F; [|reflexivity]. exfalso.
  assert (G : exists n v, In (n, v) names /\ w = str n). { clear - F. induction names as [|[n v] l IH]; [discriminate|]. cbn [find_name] in F. destruct (text_eqb w (str n)) eqn:Q. { exists n, v. split; [left; reflexivity|]. apply text_eqb_eq; exact Q. } destruct (IH F) as (m & u & I & J). exists m, u. split; [right; exact I|exact J]. }
  destruct G as (n & v & I & J).
  assert (B : forallb (fun e => existsb (fun nh => String.eqb (fst e) (fst nh)) css_names) names = true) by (vm_compute; reflexivity).
  rewrite forallb_forall in B. specialize (B _ I). apply existsb_exists in B. destruct B as ([m h] & B1 & B2). cbn [fst] in B2. apply String.eqb_eq in B2. subst m. exact (N n h B1 J).
Qed.
Print Assumptions C68_other_names.
(** Reading crashes on exactly the texts that start like a function and close a
    parenthesis before opening one. *)
Theorem C68_panics : forall rnd lc pf t, lower_ok lc ->
  (parse rnd lc pf t = Panic <->
   (exists r, lower lc (trim t) = str "rgb" ++ r \/ lower lc (trim t) = str "hsl" ++ r) /\ exists a b, lower lc (trim t) = a ++ 41 :: b /\ ~ In 40 a /\ ~ In 41 a /\ In 40 b).
Proof. intros rnd lc pf t L. apply parse_panic. exact L. Qed.
Print Assumptions C68_panics.
Theorem C68_panics_refuted : parse rnd32 sample_lc (fun _ => None) (str "rgb)(") = Panic.
Proof. vm_compute. reflexivity. Qed.
Print Assumptions C68_panics_refuted.
Example C68_example : decimal 144 (str "144") /\ numeric (str "210.5") /\ map ascii_lc (str "RGB") = str "rgb" /\ In ("dodgerblue"%string, (30, 144, 255)) names /\
  parse rnd32 sample_lc (fun t => if text_eqb t (str "0.5") then Some (1 # 2)%Q else None) (str " RGBa( 30,144 ,255, 0.5)") = Ok (rgba_of 30 144 255 (1 # 2)).
Proof.
  split. { split; [discriminate|]. split; [repeat constructor|reflexivity]. } split; [repeat (constructor; [cbn; auto|]); constructor|]. split; [reflexivity|]. split; [|vm_compute; reflexivity].
  unfold names. repeat (first [left; reflexivity | right]).
Qed.
