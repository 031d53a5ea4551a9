(** Proofs about mixing colours. *)
From Coq Require Import ZArith QArith Qround Qabs String List Bool Lia Lqa.
From Verif Require Import Text_Model Float32_Model Float32_Proofs Bars_Proofs Colour_Model Colour_Spec.
Import ListNotations.
Local Open Scope Q_scope.

Lemma Qle_bool_false : forall a b, Qle_bool a b = false -> b < a.
Proof. intros a b H. apply Qnot_le_lt. intros X. apply Qle_bool_iff in X. congruence. Qed.
Ltac qcase :=
  match goal with
  | |- context [Qle_bool ?a ?b] => let E := fresh "E" in destruct (Qle_bool a b) eqn:E; [apply Qle_bool_iff in E|apply Qle_bool_false in E]
  end.

Lemma u8_clamp_floor : forall q, 0 <= q -> q <= 255 -> u8_clamp q = Qfloor q.
Proof.
  intros q A B. unfold u8_clamp. qcase. { assert (X : q == 0) by lra. rewrite trunc_floor by lra. rewrite (Qfloor_comp _ _ X). reflexivity. }
  qcase. { assert (X : q == 255) by lra. rewrite trunc_floor by lra. rewrite (Qfloor_comp _ _ X). reflexivity. } apply trunc_floor. lra.
Qed.
Lemma u8_clamp_byte : forall q, (0 <= u8_clamp q <= 255)%Z.
Proof.
  intros q. unfold u8_clamp. qcase; [cbn; lia|]. qcase; [cbn; lia|]. rewrite trunc_floor by lra. split; [apply floor_nonneg; lra|]. apply floor_lub. change (inject_Z 255) with 255. lra.
Qed.
Lemma u8_clamp_between : forall q a b, (0 <= a)%Z -> (b <= 255)%Z -> inject_Z a <= q -> q <= inject_Z b -> (a <= u8_clamp q <= b)%Z.
Proof.
  intros q a b A B LA LB. assert (0 <= q). { apply Qle_trans with (inject_Z a); auto. change 0 with (inject_Z 0). apply inj_le; auto. }
  assert (q <= 255). { apply Qle_trans with (inject_Z b); auto. change 255 with (inject_Z 255). apply inj_le; auto. }
  rewrite u8_clamp_floor by auto. split.
  - rewrite <- (Qfloor_Z a). apply Qfloor_resp_le. auto.
  - apply floor_lub. auto.
Qed.
Lemma u8_clamp_mono : forall p q, p <= q -> (u8_clamp p <= u8_clamp q)%Z.
Proof.
  intros p q H. unfold u8_clamp. repeat qcase; try lra; try (cbn; lia); rewrite ?trunc_floor by lra; try (apply Qfloor_resp_le; lra).
Qed.

Section R.
Variable rnd : Q -> Q.
Hypothesis R : rounding rnd.

Lemma diff_exact : forall x y, (0 <= x <= 255)%Z -> (0 <= y <= 255)%Z -> rnd (inject_Z y - inject_Z x) == inject_Z (y - x).
Proof.
  intros x y X Y. assert (E : inject_Z y - inject_Z x == inject_Z (y - x)) by (unfold Z.sub; rewrite inject_Z_plus, inject_Z_opp; ring).
  rewrite (rnd_ext rnd R _ _ E). apply (rnd_int rnd R). lia.
Qed.
Lemma lerp_between : forall x y f, (0 <= x <= 255)%Z -> (0 <= y <= 255)%Z -> 0 <= f -> f <= 1 ->
  inject_Z (Z.min x y) <= lerp rnd x y f /\ lerp rnd x y f <= inject_Z (Z.max x y).
Proof.
  intros x y f X Y F0 F1. unfold lerp. pose proof (diff_exact x y X Y) as D. set (d := rnd (inject_Z y - inject_Z x)) in *.
  assert (I : inject_Z (y - x) == inject_Z y - inject_Z x) by (unfold Z.sub; rewrite inject_Z_plus, inject_Z_opp; ring).
  destruct (Z_le_gt_dec x y) as [L|L].
  - rewrite Z.min_l, Z.max_r by lia. assert (P : 0 <= inject_Z (y - x)) by (change 0 with (inject_Z 0); apply inj_le; lia).
    assert (A : 0 <= rnd (d * f)). { apply rnd_nonneg; auto. rewrite D. apply Qmult_le_0_compat; auto. }
    assert (B : rnd (d * f) <= inject_Z (y - x)). { apply rnd_le_int; auto; [lia|]. rewrite D. setoid_replace (inject_Z (y - x)) with (inject_Z (y - x) * 1) at 2 by ring. rewrite !(Qmult_comm (inject_Z (y - x))). apply Qmult_le_compat_r; auto. }
    split; [apply rnd_ge_int|apply rnd_le_int]; auto; try lia; lra.
  - rewrite Z.min_r, Z.max_l by lia. assert (P : 0 <= inject_Z (x - y)) by (change 0 with (inject_Z 0); apply inj_le; lia).
    assert (I' : inject_Z (y - x) == - inject_Z (x - y)) by (rewrite <- inject_Z_opp; replace (- (x - y))%Z with (y - x)%Z by lia; reflexivity).
    assert (M : 0 <= inject_Z (x - y) * f) by (apply Qmult_le_0_compat; auto).
    assert (M' : inject_Z (x - y) * f <= inject_Z (x - y)). { setoid_replace (inject_Z (x - y)) with (1 * inject_Z (x - y)) at 2 by ring. rewrite (Qmult_comm (inject_Z (x - y))). apply Qmult_le_compat_r; auto. }
    assert (A : rnd (d * f) <= 0). { change 0 with (inject_Z 0). apply rnd_le_int; auto; [lia|]. change (inject_Z 0) with 0. rewrite D, I'. lra. }
    assert (B : inject_Z (y - x) <= rnd (d * f)). { apply rnd_ge_int; auto; [lia|]. rewrite D, I'. lra. }
    split; [apply rnd_ge_int|apply rnd_le_int]; auto; try lia; lra.
Qed.
Lemma mix_between : forall x y f, (0 <= x <= 255)%Z -> (0 <= y <= 255)%Z -> 0 <= f -> f <= 1 -> between x y (u8_clamp (lerp rnd x y f)).
Proof. intros x y f X Y F0 F1. destruct (lerp_between x y f X Y F0 F1) as [A B]. unfold between. apply u8_clamp_between; auto; lia. Qed.
Lemma lerp_mono : forall x y f g, (0 <= x <= 255)%Z -> (0 <= y <= 255)%Z -> f <= g ->
  ((x <= y)%Z -> lerp rnd x y f <= lerp rnd x y g) /\ ((y <= x)%Z -> lerp rnd x y g <= lerp rnd x y f).
Proof.
  intros x y f g X Y F. unfold lerp. pose proof (diff_exact x y X Y) as D. set (d := rnd (inject_Z y - inject_Z x)) in *. split; intros L.
  - apply (rnd_mono rnd R). assert (P : 0 <= d) by (rewrite D; change 0 with (inject_Z 0); apply inj_le; lia).
    assert (rnd (d * f) <= rnd (d * g)) by (apply (rnd_mono rnd R); rewrite !(Qmult_comm d); apply Qmult_le_compat_r; auto). lra.
  - apply (rnd_mono rnd R). assert (P : 0 <= - d) by (rewrite D, <- inject_Z_opp; change 0 with (inject_Z 0); apply inj_le; lia).
    assert (rnd (d * g) <= rnd (d * f)). { apply (rnd_mono rnd R). assert (f * (- d) <= g * (- d)) by (apply Qmult_le_compat_r; auto). lra. } lra.
Qed.
Lemma lerp_zero : forall x y f, f == 0 -> (0 <= x <= 255)%Z -> (0 <= y <= 255)%Z -> lerp rnd x y f == inject_Z x.
Proof.
  intros x y f F X Y. unfold lerp. assert (E : rnd (rnd (inject_Z y - inject_Z x) * f) == 0). { rewrite (rnd_ext rnd R _ (inject_Z 0)). apply (rnd_int rnd R); lia. rewrite F. ring. }
  rewrite (rnd_ext rnd R _ (inject_Z x)); [apply (rnd_int rnd R); lia|]. rewrite E. ring.
Qed.
Lemma lerp_one : forall x y f, f == 1 -> (0 <= x <= 255)%Z -> (0 <= y <= 255)%Z -> lerp rnd x y f == inject_Z y.
Proof.
  intros x y f F X Y. unfold lerp. pose proof (diff_exact x y X Y) as D. assert (E : rnd (rnd (inject_Z y - inject_Z x) * f) == inject_Z (y - x)). { rewrite (rnd_ext rnd R _ (inject_Z (y - x))). apply (rnd_int rnd R); lia. rewrite F, D. ring. }
  rewrite (rnd_ext rnd R _ (inject_Z y)); [apply (rnd_int rnd R); lia|]. rewrite E. unfold Z.sub; rewrite inject_Z_plus, inject_Z_opp; ring.
Qed.
Lemma u8_clamp_int : forall q z, (0 <= z <= 255)%Z -> q == inject_Z z -> u8_clamp q = z.
Proof.
  intros q z H E. assert (0 <= q) by (rewrite E; change 0 with (inject_Z 0); apply inj_le; lia). assert (q <= 255) by (rewrite E; change 255 with (inject_Z 255); apply inj_le; lia).
  rewrite u8_clamp_floor by auto. rewrite (Qfloor_comp _ _ E). apply Qfloor_Z.
Qed.

Hypothesis Ac : accurate rnd.
Lemma close : forall q m, Qabs q <= m -> Qabs (rnd q - q) <= m * (1 # 16777216).
Proof. intros q m H. pose proof (Ac q) as A. change (1 # 2 ^ 24) with (1 # 16777216) in A. lra. Qed.
Lemma abs_le : forall q m, - m <= q -> q <= m -> Qabs q <= m.
Proof. intros. apply Qabs_Qle_condition. split; auto. Qed.
Lemma abs_elim : forall q m, Qabs q <= m -> - m <= q /\ q <= m.
Proof. intros q m H. apply Qabs_Qle_condition in H. auto. Qed.
(** The rounded value is within [m/2^24] when the value is within [m]. *)
Lemma close2 : forall q m, - m <= q -> q <= m -> - (m * (1 # 16777216)) <= rnd q - q /\ rnd q - q <= m * (1 # 16777216).
Proof. intros. apply abs_elim. apply close. apply abs_le; auto. Qed.
Lemma byte_q : forall x, (0 <= x <= 255)%Z -> 0 <= inject_Z x /\ inject_Z x <= 255.
Proof. intros x H. split; [change 0 with (inject_Z 0)|change 255 with (inject_Z 255)]; apply inj_le; lia. Qed.
Lemma prod_bound : forall d f, -(255) <= d -> d <= 255 -> 0 <= f -> f <= 1 -> -(255) <= d * f /\ d * f <= 255.
Proof. intros d f A B C D. split; nra. Qed.
Lemma lerp_accuracy : forall x y f, (0 <= x <= 255)%Z -> (0 <= y <= 255)%Z -> 0 <= f -> f <= 1 ->
  - (1 # 1000) <= lerp rnd x y f - part_way x y f /\ lerp rnd x y f - part_way x y f <= 1 # 1000.
Proof.
  intros x y f X Y F0 F1. unfold lerp, part_way. pose proof (diff_exact x y X Y) as D. set (d := rnd (inject_Z y - inject_Z x)) in *.
  assert (I : inject_Z (y - x) == inject_Z y - inject_Z x) by (unfold Z.sub; rewrite inject_Z_plus, inject_Z_opp; ring). rewrite I in D.
  destruct (byte_q x X), (byte_q y Y). destruct (prod_bound d f) as [P1 P2]; auto; try lra.
  destruct (close2 (d * f) 255) as [A B]; auto. destruct (close2 (inject_Z x + rnd (d * f)) 600) as [G J]; try lra.
  assert (E : d * f == (inject_Z y - inject_Z x) * f) by (rewrite D; reflexivity). lra.
Qed.
Lemma mix_accuracy : forall x y f, (0 <= x <= 255)%Z -> (0 <= y <= 255)%Z -> 0 <= f -> f <= 1 ->
  part_way x y f - 1 - (1 # 1000) < inject_Z (u8_clamp (lerp rnd x y f)) /\ inject_Z (u8_clamp (lerp rnd x y f)) <= part_way x y f + (1 # 1000).
Proof.
  intros x y f X Y F0 F1. destruct (lerp_between x y f X Y F0 F1) as [A B]. destruct (lerp_accuracy x y f X Y F0 F1) as [G J].
  assert (0 <= inject_Z (Z.min x y)) by (apply byte_q; lia). assert (inject_Z (Z.max x y) <= 255) by (apply byte_q; lia).
  rewrite u8_clamp_floor by lra. pose proof (Qfloor_le (lerp rnd x y f)). pose proof (Qlt_floor (lerp rnd x y f)) as L. rewrite inject_Z_plus in L. change (inject_Z 1) with 1 in L. lra.
Qed.

(** *** Brightness *)
Lemma brightness_luma : forall c, bytes c -> - (1 # 1000000) <= brightness rnd c - luma c /\ brightness rnd c - luma c <= 1 # 1000000.
Proof.
  intros c B. unfold brightness, luma. destruct (byte_q _ (B Red)) as [R0 R1], (byte_q _ (B Green)) as [G0 G1], (byte_q _ (B Blue)) as [B0 B1]. cbn [get] in *.
  set (r := inject_Z (c_r c)) in *. set (g := inject_Z (c_g c)) in *. set (b := inject_Z (c_b c)) in *. change (inject_Z 255) with 255.
  destruct (close2 (299 # 1000) (299 # 1000)) as [K1 K2]; try lra. destruct (close2 (587 # 1000) (587 # 1000)) as [K3 K4]; try lra. destruct (close2 (114 # 1000) (114 # 1000)) as [K5 K6]; try lra.
  set (kr := rnd (299 # 1000)) in *. set (kg := rnd (587 # 1000)) in *. set (kb := rnd (114 # 1000)) in *.
  assert (M : forall k x e, 0 <= x -> x <= 255 -> - e <= k -> k <= e -> - (255 * e) <= k * x /\ k * x <= 255 * e).
  { intros k x e X0 X1 KA KB. split; nra. }
  destruct (M (kr - (299 # 1000)) r (1 # 50000000)) as [D1 D2]; try lra. destruct (M (kg - (587 # 1000)) g (1 # 28500000)) as [D3 D4]; try lra. destruct (M (kb - (114 # 1000)) b (1 # 100000000)) as [D5 D6]; try lra.
  destruct (close2 (kr * r) 80) as [P1 P2]; try lra. destruct (close2 (kg * g) 160) as [P3 P4]; try lra. destruct (close2 (kb * b) 30) as [P5 P6]; try lra.
  set (pr := rnd (kr * r)) in *. set (pg := rnd (kg * g)) in *. set (pb := rnd (kb * b)) in *.
  destruct (close2 (pr + pg) 230) as [S1 S2]; try lra. set (s1 := rnd (pr + pg)) in *. destruct (close2 (s1 + pb) 260) as [S3 S4]; try lra. set (s2 := rnd (s1 + pb)) in *.
  unfold Qdiv. change (/ 255) with (1 # 255). destruct (close2 (s2 * (1 # 255)) 2) as [V1 V2]; lra.
Qed.
(** Brightness is a multiple of 1/255000. *)
Lemma luma_steps : forall c, luma c == inject_Z (299 * c_r c + 587 * c_g c + 114 * c_b c) * (1 # 255000).
Proof. intros c. unfold luma. rewrite !inject_Z_plus, !inject_Z_mult. change (inject_Z 299) with 299. change (inject_Z 587) with 587. change (inject_Z 114) with 114. field. Qed.
Lemma dark_light : forall c, bytes c -> (1 # 2 <= brightness rnd c -> 1 # 2 <= luma c) /\ (brightness rnd c < 1 # 2 -> luma c <= 1 # 2).
Proof.
  intros c B. destruct (brightness_luma c B) as [A D]. rewrite (luma_steps c) in *. set (n := (299 * c_r c + 587 * c_g c + 114 * c_b c)%Z) in *.
  split; intros H.
  - assert (X : (127500 <= n)%Z). { destruct (Z_le_gt_dec 127500 n); auto. assert (inject_Z n <= inject_Z 127499) by (apply inj_le; lia). change (inject_Z 127499) with 127499 in *. lra. }
    apply inj_le in X. change (inject_Z 127500) with 127500 in X. lra.
  - assert (X : (n <= 127500)%Z). { destruct (Z_le_gt_dec n 127500); auto. assert (inject_Z 127501 <= inject_Z n) by (apply inj_le; lia). change (inject_Z 127501) with 127501 in *. lra. }
    apply inj_le in X. change (inject_Z 127500) with 127500 in X. lra.
Qed.
Lemma luma_range : forall c, bytes c -> 0 <= luma c /\ luma c <= 1.
Proof.
  intros c B. destruct (byte_q _ (B Red)) as [R0 R1], (byte_q _ (B Green)) as [G0 G1], (byte_q _ (B Blue)) as [B0 B1]. cbn [get] in *. unfold luma. 
  unfold Qdiv. change (/ 255) with (1 # 255). lra.
Qed.

Lemma u8_round_close : forall q, 0 <= q -> q <= 255 -> inject_Z (u8_round q) <= q + (1 # 2) /\ q - (1 # 2) <= inject_Z (u8_round q) /\ (0 <= u8_round q <= 255)%Z.
Proof.
  intros q A B. unfold u8_round. qcase. { change (inject_Z 0) with 0. split; [lra|]. split; [lra|lia]. }
  pose proof (Qfloor_le (q + (1 # 2))) as F. pose proof (Qlt_floor (q + (1 # 2))) as L. rewrite inject_Z_plus in L. change (inject_Z 1) with 1 in L.
  assert (N : (0 <= Qfloor (q + (1 # 2)))%Z) by (apply floor_nonneg; lra).
  assert (M : (Qfloor (q + (1 # 2)) <= 255)%Z). { assert (X : inject_Z (Qfloor (q + (1 # 2))) < inject_Z 256) by (change (inject_Z 256) with 256; lra). rewrite <- Zlt_Qlt in X. lia. }
  rewrite Z.min_l by auto. split; [lra|]. split; [lra|lia].
Qed.
(** A channel of the contrast colour. *)
Lemma contrast_mix : forall k x ratio, (k = 0 \/ k = 255)%Z -> (0 <= x <= 255)%Z -> 0 <= ratio -> ratio <= 1 ->
  let z := u8_round (rnd (rnd (inject_Z k * ratio) + rnd (inject_Z x * rnd (1 - ratio)))) in
  (0 <= z <= 255)%Z /\ - (501 # 1000) <= inject_Z z - (inject_Z k * ratio + inject_Z x * (1 - ratio)) /\ inject_Z z - (inject_Z k * ratio + inject_Z x * (1 - ratio)) <= 501 # 1000.
Proof.
  intros k x ratio K X R0 R1 z. subst z. destruct (byte_q x X) as [X0 X1]. assert (KQ : 0 <= inject_Z k /\ inject_Z k <= 255) by (apply byte_q; lia). destruct KQ as [K0 K1].
  set (kq := inject_Z k) in *. set (xq := inject_Z x) in *.
  assert (M1 : 0 <= kq * ratio) by (apply Qmult_le_0_compat; auto). assert (M2 : kq * ratio <= 255) by nra.
  destruct (close2 (1 - ratio) 1) as [A1 A2]; try lra. assert (A3 : 0 <= rnd (1 - ratio)) by (apply rnd_nonneg; auto; lra). assert (A4 : rnd (1 - ratio) <= 1) by (apply rnd_le_one; auto; lra).
  set (w := rnd (1 - ratio)) in *. assert (N1 : 0 <= xq * w) by (apply Qmult_le_0_compat; auto). assert (N2 : xq * w <= 255) by nra.
  assert (N3 : - (1 # 60000) <= xq * (w - (1 - ratio)) /\ xq * (w - (1 - ratio)) <= 1 # 60000) by (split; nra).
  destruct (close2 (kq * ratio) 255) as [B1 B2]; try lra. destruct (close2 (xq * w) 255) as [C1 C2]; try lra.
  assert (B3 : 0 <= rnd (kq * ratio)) by (apply rnd_nonneg; auto). assert (C3 : 0 <= rnd (xq * w)) by (apply rnd_nonneg; auto).
  set (u := rnd (kq * ratio)) in *. set (v := rnd (xq * w)) in *. 
  assert (TOP : kq * ratio + xq * (1 - ratio) <= 255). { assert (xq * (1 - ratio) <= 255 * (1 - ratio)) by (apply Qmult_le_compat_r; lra). assert (kq * ratio <= 255 * ratio) by (apply Qmult_le_compat_r; lra). lra. }
  destruct N3 as [N3 N4]. destruct (close2 (u + v) 256) as [D1 D2]; try lra.
  assert (D3 : 0 <= rnd (u + v)) by (apply rnd_nonneg; auto; lra). set (t := rnd (u + v)) in *.
  assert (T : t <= 255 + (1 # 10000)) by lra.
  destruct (Qlt_le_dec 255 t) as [O|O].
  - (* just above 255 through rounding *)
    assert (Z : u8_round t = 255%Z). { unfold u8_round. qcase; [lra|]. assert (F : Qfloor (t + (1 # 2)) = 255%Z). { pose proof (Qfloor_le (t + (1 # 2))) as F1. pose proof (Qlt_floor (t + (1 # 2))) as F2. rewrite inject_Z_plus in F2. change (inject_Z 1) with 1 in F2. assert (Y1 : inject_Z (Qfloor (t + (1 # 2))) < inject_Z 256) by (change (inject_Z 256) with 256; lra). assert (Y2 : inject_Z 254 < inject_Z (Qfloor (t + (1 # 2)))) by (change (inject_Z 254) with 254; lra). rewrite <- Zlt_Qlt in Y1, Y2. lia. } rewrite F. reflexivity. }
    rewrite Z. change (inject_Z 255) with 255. split; [lia|]. split; lra.
  - destruct (u8_round_close t D3 O) as (U1 & U2 & U3). split; auto. split; lra.
Qed.
End R.

(** The accuracy of f32. *)
Lemma near_close_up : forall q, inject_Z (near q) <= q + (1#2).
Proof. intros q. destruct (near_cases q) as [[A B] [[C ->] |[[C ->] |[C ->]]]]; try (destruct (Z.even (Qfloor q))); rewrite ?inject_Z_plus; change (inject_Z 1) with 1; lra. Qed.
Lemma rnd32_rel_up : forall q, 0 < q -> rnd32 q <= (1 + (1 # 2 ^ 24)) * q.
Proof.
  intros q H. rewrite rnd32_pos by auto. destruct (expo_spec q H) as [A _]. set (e := expo q) in *. unfold rnd_pos. fold e.
  pose proof (pow2_pos e) as P. pose proof (pow2_opp e) as O. pose proof (near_close_up (q * pow2 (- e))) as N. rewrite (pow2_shift 23 e) in A by lia.
  change (inject_Z (2 ^ 23)) with (8388608#1) in A. change (1 # 2 ^ 24) with (1 # 16777216).
  assert (M : inject_Z (near (q * pow2 (- e))) * pow2 e <= (q * pow2 (- e) + (1 # 2)) * pow2 e) by (apply Qmult_le_compat_r; lra).
  assert (E : (q * pow2 (- e) + (1 # 2)) * pow2 e == q + (1#2) * pow2 e). { rewrite <- (Qmult_1_r q) at 2. rewrite <- O. ring. }
  rewrite E in M. lra.
Qed.
Lemma accurate_rnd32 : accurate rnd32.
Proof.
  intros q. destruct (Q_dec q 0) as [[H|H]|H].
  - assert (P : 0 < - q) by lra. pose proof (rnd32_rel _ P) as A. pose proof (rnd32_rel_up _ P) as B. rewrite rnd32_pos in A, B by auto. rewrite rnd32_neg by auto. rewrite (Qabs_neg q) by lra. apply Qabs_Qle_condition. change (1 # 2 ^ 24) with (1 # 16777216) in *. lra.
  - pose proof (rnd32_rel _ H) as A. pose proof (rnd32_rel_up _ H) as B. rewrite (Qabs_pos q) by lra. apply Qabs_Qle_condition. change (1 # 2 ^ 24) with (1 # 16777216) in *. lra.
  - rewrite (rnd32_zero q H). rewrite H. vm_compute. discriminate.
Qed.
Lemma accurate_exact : accurate exactly.
Proof. intros q. cbn beta. setoid_replace (q - q) with 0 by ring. change (Qabs 0) with 0. apply Qmult_le_0_compat; [discriminate|apply Qabs_nonneg]. Qed.
