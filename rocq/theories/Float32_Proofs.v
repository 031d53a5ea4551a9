(** Rounding to 24 bits keeps the order and the integers. *)
From Coq Require Import ZArith QArith Qround Lqa Lia Bool.
From Verif Require Import Float32_Model.
Open Scope Q_scope.

Lemma inj_pos : forall z, (0 < z)%Z -> 0 < inject_Z z. Proof. intros z H. change 0 with (inject_Z 0). rewrite <- Zlt_Qlt. auto. Qed.
Lemma pow2_pos : forall e, 0 < pow2 e.
Proof.
  intros e. unfold pow2. destruct (Z.leb_spec 0 e).
  - apply inj_pos. apply Z.pow_pos_nonneg; lia.
  - apply Qinv_lt_0_compat. apply inj_pos. apply Z.pow_pos_nonneg; lia.
Qed.
Lemma pow2_S : forall e, pow2 (e + 1) == 2 * pow2 e.
Proof.
  intros e. unfold pow2. destruct (Z.leb_spec 0 e); destruct (Z.leb_spec 0 (e + 1)); try lia.
  - rewrite Z.pow_add_r by lia. rewrite inject_Z_mult. change (inject_Z (2 ^ 1)) with 2. ring.
  - assert (e = -1)%Z by lia. subst. reflexivity.
  - replace (- e)%Z with ((- (e + 1)) + 1)%Z by lia. rewrite Z.pow_add_r by lia. rewrite inject_Z_mult. change (inject_Z (2 ^ 1)) with 2.
    assert (P : 0 < inject_Z (2 ^ - (e + 1))) by (apply inj_pos; apply Z.pow_pos_nonneg; lia).
    field. intros E. rewrite E in P. lra.
Qed.
Lemma pow2_add_nat : forall (n : nat) e, pow2 (e + Z.of_nat n) == inject_Z (2 ^ Z.of_nat n) * pow2 e.
Proof.
  induction n as [|n IH]; intros e.
  - rewrite Z.add_0_r. change (inject_Z (2 ^ Z.of_nat 0)) with 1. ring.
  - replace (e + Z.of_nat (S n))%Z with ((e + Z.of_nat n) + 1)%Z by lia. rewrite pow2_S, IH. replace (Z.of_nat (S n)) with (Z.of_nat n + 1)%Z by lia.
    rewrite Z.pow_add_r by lia. rewrite inject_Z_mult. change (inject_Z (2 ^ 1)) with 2. ring.
Qed.
Lemma pow2_shift : forall k e, (0 <= k)%Z -> pow2 (e + k) == inject_Z (2 ^ k) * pow2 e.
Proof. intros k e H. rewrite <- (Z2Nat.id k) by auto. apply pow2_add_nat. Qed.
Lemma pow2_le : forall a b, (a <= b)%Z -> pow2 a <= pow2 b.
Proof.
  intros a b H. replace b with (a + (b - a))%Z by lia. rewrite pow2_shift by lia.
  assert (1 <= inject_Z (2 ^ (b - a))). { change 1 with (inject_Z 1). rewrite <- Zle_Qle. assert (0 < 2 ^ (b - a))%Z by (apply Z.pow_pos_nonneg; lia). lia. }
  pose proof (pow2_pos a). nra.
Qed.
Lemma pow2_lt_inv : forall a b, pow2 a < pow2 b -> (a < b)%Z.
Proof. intros a b H. destruct (Z_lt_le_dec a b); auto. apply pow2_le in l. lra. Qed.
Lemma pow2_opp : forall e, pow2 (- e) * pow2 e == 1.
Proof.
  intros e. destruct (Z_le_gt_dec 0 e) as [H|H].
  - pose proof (pow2_shift e (- e) H) as P. replace (- e + e)%Z with 0%Z in P by lia. change (pow2 0) with 1 in P.
    assert (E : pow2 e == inject_Z (2 ^ e)). { unfold pow2. destruct (Z.leb_spec 0 e); [reflexivity|lia]. } rewrite E. lra.
  - assert (H' : (0 <= - e)%Z) by lia. pose proof (pow2_shift (- e) e H') as P. replace (e + - e)%Z with 0%Z in P by lia. change (pow2 0) with 1 in P.
    assert (E : pow2 (- e) == inject_Z (2 ^ - e)). { unfold pow2. destruct (Z.leb_spec 0 (- e)); [reflexivity|lia]. } rewrite E. lra.
Qed.
Lemma expo_spec : forall q, 0 < q -> pow2 (expo q + 23) <= q < pow2 (expo q + 24).
Proof.
  intros [n d] H. assert (N : (0 < n)%Z). { unfold Qlt in H. cbn in H. lia. }
  pose proof (Z.log2_spec n N) as [L1 L2]. pose proof (Z.log2_spec (Zpos d) eq_refl) as [D1 D2].
  set (a := Z.log2 n) in *. set (b := Z.log2 (Zpos d)) in *. assert (A : (0 <= a)%Z) by apply Z.log2_nonneg. assert (B : (0 <= b)%Z) by apply Z.log2_nonneg.
  assert (QN : n # d == inject_Z n / inject_Z (Zpos d)) by (rewrite Qmake_Qdiv; reflexivity).
  assert (PD : 0 < inject_Z (Zpos d)) by (apply inj_pos; reflexivity).
  assert (QM : (n # d) * inject_Z (Zpos d) == inject_Z n). { rewrite QN. field. lra. }
  rewrite Zle_Qle in L1, D1. rewrite Zlt_Qlt in L2, D2. unfold Z.succ in L2, D2. rewrite Z.pow_add_r in L2, D2 by lia. rewrite inject_Z_mult in L2, D2. change (inject_Z (2 ^ 1)) with 2 in L2, D2.
  assert (KA : pow2 (a - b) * inject_Z (2 ^ b) == inject_Z (2 ^ a)).
  { pose proof (pow2_shift b (a - b) B) as P. replace (a - b + b)%Z with a in P by lia. unfold pow2 at 1 in P. destruct (Z.leb_spec 0 a); [|lia]. rewrite P. ring. }
  pose proof (pow2_pos (a - b)) as PP. assert (P2 : 0 < inject_Z (2 ^ b)) by (apply inj_pos; apply Z.pow_pos_nonneg; lia).
  assert (K1 : pow2 (a - b) == 2 * pow2 (a - b - 1)). { rewrite <- pow2_S. replace (a - b - 1 + 1)%Z with (a - b)%Z by lia. reflexivity. }
  assert (Up : n # d < pow2 (a - b + 1)).
  { rewrite pow2_S. apply (Qmult_lt_r _ _ (inject_Z (Zpos d)) PD). rewrite QM. nra. }
  assert (Lo : pow2 (a - b - 1) <= n # d).
  { apply (Qmult_le_r _ _ (inject_Z (Zpos d)) PD). rewrite QM. nra. }
  unfold expo. cbn [Qnum Qden]. fold a b. destruct (Qle_bool (pow2 (a - b)) (n # d)) eqn:C.
  - apply Qle_bool_iff in C. replace (a - b - 23 + 23)%Z with (a - b)%Z by lia. replace (a - b - 23 + 24)%Z with (a - b + 1)%Z by lia. split; auto.
  - assert (C' : n # d < pow2 (a - b)). { apply Qnot_le_lt. intros X. apply Qle_bool_iff in X. congruence. }
    replace (a - b - 24 + 23)%Z with (a - b - 1)%Z by lia. replace (a - b - 24 + 24)%Z with (a - b)%Z by lia. split; auto.
Qed.
Lemma near_cases : forall q, let f := Qfloor q in inject_Z f <= q < inject_Z f + 1 /\
  ((q - inject_Z f < 1#2 /\ near q = f) \/ (1#2 < q - inject_Z f /\ near q = (f + 1)%Z) \/ (q - inject_Z f == 1#2 /\ near q = if Z.even f then f else (f + 1)%Z)).
Proof.
  intros q f. split. { split; [apply Qfloor_le|]. pose proof (Qlt_floor q) as H. rewrite inject_Z_plus in H. exact H. }
  unfold near. fold f. destruct (Qcompare_spec (q - inject_Z f) (1#2)); auto.
Qed.
Lemma near_mono : forall p q, p <= q -> (near p <= near q)%Z.
Proof.
  intros p q H. destruct (near_cases p) as [[P1 P2] P]. destruct (near_cases q) as [[Q1 Q2] Q]. set (f := Qfloor p) in *. set (g := Qfloor q) in *.
  assert (FG : (f <= g)%Z) by (apply Qfloor_resp_le; auto).
  destruct (Z.eq_dec f g) as [E|N].
  - destruct P as [[P ->] |[[P ->] |[P ->]]]; destruct Q as [[Q ->] |[[Q ->] |[Q ->]]]; rewrite <- E in *; try lia; try lra; destruct (Z.even f); try lia; lra.
  - destruct P as [[P ->] |[[P ->] |[P ->]]]; destruct Q as [[Q ->] |[[Q ->] |[Q ->]]]; try lia; destruct (Z.even f); try lia; destruct (Z.even g); lia.
Qed.
Lemma near_int : forall q z, q == inject_Z z -> near q = z.
Proof.
  intros q z E. assert (F : Qfloor q = z). { rewrite (Qfloor_comp _ _ E). apply Qfloor_Z. } destruct (near_cases q) as [_ [[A B]|[[A B]|[A B]]]]; rewrite F in *; rewrite E in A; try lra. exact B.
Qed.
Lemma near_bounds : forall q z w, inject_Z z <= q -> q <= inject_Z w -> (z <= near q <= w)%Z.
Proof. intros q z w A B. apply near_mono in A. apply near_mono in B. rewrite (near_int (inject_Z z) z (Qeq_refl _)) in A. rewrite (near_int (inject_Z w) w (Qeq_refl _)) in B. lia. Qed.
Lemma rnd_pos_bounds : forall q, 0 < q -> pow2 (expo q + 23) <= rnd_pos q <= pow2 (expo q + 24).
Proof.
  intros q H. destruct (expo_spec q H) as [A B]. set (e := expo q) in *. unfold rnd_pos. fold e. pose proof (pow2_pos e) as P. pose proof (pow2_pos (- e)) as P'. pose proof (pow2_opp e) as O.
  rewrite (pow2_shift 23 e) in A by lia. rewrite (pow2_shift 24 e) in B by lia. rewrite (pow2_shift 23 e), (pow2_shift 24 e) by lia.
  assert (N : (2 ^ 23 <= near (q * pow2 (- e)) <= 2 ^ 24)%Z).
  { apply near_bounds.
    - apply Qle_trans with (inject_Z (2 ^ 23) * pow2 e * pow2 (- e)); [rewrite <- Qmult_assoc, (Qmult_comm (pow2 e)), O; lra|]. apply Qmult_le_compat_r; lra.
    - apply Qle_trans with (inject_Z (2 ^ 24) * pow2 e * pow2 (- e)); [apply Qmult_le_compat_r; lra|]. rewrite <- Qmult_assoc, (Qmult_comm (pow2 e)), O. lra. }
  destruct N as [N1 N2]. rewrite Zle_Qle in N1, N2. split; apply Qmult_le_compat_r; lra.
Qed.
Lemma expo_mono : forall p q, 0 < p -> p <= q -> (expo p <= expo q)%Z.
Proof.
  intros p q H L. destruct (expo_spec p H) as [A _]. destruct (expo_spec q) as [_ B]; [lra|]. assert (X : pow2 (expo p + 23) < pow2 (expo q + 24)) by lra. apply pow2_lt_inv in X. lia.
Qed.
Lemma rnd_pos_mono : forall p q, 0 < p -> p <= q -> rnd_pos p <= rnd_pos q.
Proof.
  intros p q H L. pose proof (expo_mono p q H L) as E. destruct (Z.eq_dec (expo p) (expo q)) as [Q|N].
  - unfold rnd_pos. rewrite Q. pose proof (pow2_pos (expo q)). pose proof (pow2_pos (- expo q)). apply Qmult_le_compat_r; [|lra].
    rewrite <- Zle_Qle. apply near_mono. apply Qmult_le_compat_r; lra.
  - destruct (rnd_pos_bounds p H) as [_ A]. destruct (rnd_pos_bounds q) as [B _]; [lra|]. assert (pow2 (expo p + 24) <= pow2 (expo q + 23)) by (apply pow2_le; lia). lra.
Qed.
Lemma rnd32_pos : forall q, 0 < q -> rnd32 q = rnd_pos q.
Proof. intros [n d] H. unfold rnd32, Qlt in *. cbn in *. destruct n; try lia; reflexivity. Qed.
Lemma rnd32_neg : forall q, q < 0 -> rnd32 q = - rnd_pos (- q).
Proof. intros [n d] H. unfold rnd32, Qlt in *. cbn in *. destruct n; try lia; reflexivity. Qed.
Lemma rnd32_zero : forall q, q == 0 -> rnd32 q = 0.
Proof. intros [n d] H. unfold rnd32, Qeq in *. cbn in *. destruct n; try lia; reflexivity. Qed.
Lemma rnd_pos_pos : forall q, 0 < q -> 0 < rnd_pos q.
Proof. intros q H. destruct (rnd_pos_bounds q H) as [A _]. pose proof (pow2_pos (expo q + 23)). lra. Qed.
Lemma rnd32_mono : forall a b, a <= b -> rnd32 a <= rnd32 b.
Proof.
  intros a b H. destruct (Q_dec a 0) as [[A|A]|A]; destruct (Q_dec b 0) as [[B|B]|B]; try (exfalso; lra).
  - rewrite rnd32_neg, (rnd32_neg b) by auto. assert (rnd_pos (- b) <= rnd_pos (- a)) by (apply rnd_pos_mono; lra). lra.
  - rewrite rnd32_neg, (rnd32_pos b) by auto. assert (0 < rnd_pos (- a)) by (apply rnd_pos_pos; lra). assert (0 < rnd_pos b) by (apply rnd_pos_pos; lra). lra.
  - rewrite rnd32_neg, (rnd32_zero b) by auto. assert (0 < rnd_pos (- a)) by (apply rnd_pos_pos; lra). lra.
  - rewrite !rnd32_pos by auto. apply rnd_pos_mono; auto.
  - rewrite (rnd32_zero a), (rnd32_pos b) by auto. assert (0 < rnd_pos b) by (apply rnd_pos_pos; lra). lra.
  - rewrite !rnd32_zero by auto. lra.
Qed.
Lemma rnd_pos_int : forall z, (0 < z <= 2 ^ 24)%Z -> rnd_pos (inject_Z z) == inject_Z z.
Proof.
  intros z H. set (q := inject_Z z). assert (P : 0 < q) by (apply inj_pos; lia). destruct (expo_spec q P) as [A B]. set (e := expo q) in *.
  assert (E : (e <= 1)%Z).
  { destruct (Z_le_gt_dec e 1); auto. assert (X : pow2 25 <= pow2 (e + 23)) by (apply pow2_le; lia). assert (Y : q <= inject_Z (2 ^ 24)) by (unfold q; rewrite <- Zle_Qle; lia). change (pow2 25) with (inject_Z (2 ^ 25)) in X.
    assert (Z : inject_Z (2 ^ 25) <= inject_Z (2 ^ 24)) by lra. rewrite <- Zle_Qle in Z. lia. }
  assert (I : exists w, q * pow2 (- e) == inject_Z w).
  { destruct (Z.eq_dec e 1) as [E1|E1].
    - rewrite E1 in *. change (pow2 (1 + 23)) with (inject_Z (2 ^ 24)) in A. unfold q in A. rewrite <- Zle_Qle in A. assert (z = 2 ^ 24)%Z by lia. exists (2 ^ 23)%Z. unfold q. subst z. reflexivity.
    - exists (z * 2 ^ (- e))%Z. rewrite inject_Z_mult. unfold q, pow2. destruct (Z.leb_spec 0 (- e)); [reflexivity|lia]. }
  destruct I as (w & W). unfold rnd_pos. fold e. rewrite (near_int _ w W). rewrite <- W, <- Qmult_assoc, pow2_opp. ring.
Qed.
Lemma rnd32_int : forall z, (Z.abs z <= 2 ^ 24)%Z -> rnd32 (inject_Z z) == inject_Z z.
Proof.
  intros z H. destruct (Z.lt_trichotomy z 0) as [L|[->|L]].
  - assert (N : inject_Z z < 0) by (change 0 with (inject_Z 0); rewrite <- Zlt_Qlt; auto). rewrite rnd32_neg by auto.
    assert (E : - inject_Z z = inject_Z (- z)) by (rewrite inject_Z_opp; reflexivity). rewrite E. rewrite rnd_pos_int by lia. rewrite inject_Z_opp. ring.
  - reflexivity.
  - rewrite rnd32_pos by (apply inj_pos; auto). apply rnd_pos_int. lia.
Qed.
Lemma near_close : forall q, q - (1#2) <= inject_Z (near q).
Proof.
  intros q. destruct (near_cases q) as [[A B] [[C ->] |[[C ->] |[C ->]]]]; try (destruct (Z.even (Qfloor q))); rewrite ?inject_Z_plus; change (inject_Z 1) with 1; lra.
Qed.
Lemma rnd32_rel : forall q, 0 < q -> (1 - (1 # 2 ^ 24)) * q <= rnd32 q.
Proof.
  intros q H. rewrite rnd32_pos by auto. destruct (expo_spec q H) as [A _]. set (e := expo q) in *. unfold rnd_pos. fold e.
  pose proof (pow2_pos e) as P. pose proof (pow2_opp e) as O. pose proof (near_close (q * pow2 (- e))) as N. rewrite (pow2_shift 23 e) in A by lia.
  change (inject_Z (2 ^ 23)) with (8388608#1) in A. change (1 # 2 ^ 24) with (1 # 16777216).
  assert (M : (q * pow2 (- e) - (1 # 2)) * pow2 e <= inject_Z (near (q * pow2 (- e))) * pow2 e) by (apply Qmult_le_compat_r; lra).
  assert (E : (q * pow2 (- e) - (1 # 2)) * pow2 e == q - (1#2) * pow2 e). { rewrite <- (Qmult_1_r q) at 2. rewrite <- O. ring. }
  rewrite E in M. lra.
Qed.
Lemma rounding_rnd32 : rounding rnd32. Proof. split; [exact rnd32_mono|exact rnd32_int|exact rnd32_rel]. Qed.
Lemma rounding_exact : rounding (fun q => q).
Proof. split; intros; [auto|reflexivity|]. change (1 # 2 ^ 24) with (1 # 16777216). lra. Qed.
