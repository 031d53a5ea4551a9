From Coq Require Import ZArith QArith Qround List Lia Qfield Znumtheory.
From Verif Require Import Fraction_Model Fraction_Spec.
Import ListNotations.
Open Scope Z_scope.

Lemma gcd_loop_S : forall k a b,
  gcd_loop (S k) a b = if b =? 0 then Some a else gcd_loop k b (Z.rem a b).
Proof. reflexivity. Qed.

Lemma gcd_loop_step : forall k a b,
  0 <= a -> 0 <= b -> b < 2 ^ Z.of_nat k ->
  gcd_loop (S (2 * k)) a b = Some (Z.gcd a b).
Proof.
  induction k as [|k IH]; intros a b Ha Hb Hlt.
  - assert (b = 0) by (change (2 ^ Z.of_nat 0) with 1 in Hlt; lia). subst b.
    cbn. rewrite Z.gcd_0_r. f_equal. lia.
  - replace (S (2 * S k)) with (S (S (S (2 * k)))) by lia.
    rewrite (gcd_loop_S (S (S (2 * k)))), (gcd_loop_S (S (2 * k))).
    destruct (Z.eqb_spec b 0) as [->|Hb0].
    + rewrite Z.gcd_0_r. f_equal. lia.
    + rewrite Z.rem_mod_nonneg by lia.
      pose proof (Z.mod_pos_bound a b ltac:(lia)) as Hr.
      set (r := a mod b) in *.
      assert (Hg : Z.gcd a b = Z.gcd b r).
      { unfold r. rewrite Z.gcd_comm. rewrite (Z.gcd_comm b (a mod b)).
        rewrite Z.gcd_mod by lia. reflexivity. }
      destruct (Z.eqb_spec r 0) as [Hr0|Hr0].
      * rewrite Hg, Hr0, Z.gcd_0_r. f_equal. lia.
      * rewrite Z.rem_mod_nonneg by lia.
        pose proof (Z.mod_pos_bound b r ltac:(lia)) as Hs.
        assert (Hhalf : 2 * (b mod r) < b).
        { pose proof (Z.div_mod b r ltac:(lia)) as Hdm.
          assert (1 <= b / r) by (apply Z.div_le_lower_bound; lia).
          nia. }
        rewrite IH; [| lia | lia |].
        -- rewrite Hg. f_equal. rewrite Z.gcd_comm, Z.gcd_mod by lia. apply Z.gcd_comm.
        -- rewrite Nat2Z.inj_succ, Z.pow_succ_r in Hlt by lia. lia.
Qed.

Lemma gcd_loop_total : forall a b, 0 <= a -> 0 <= b ->
  gcd_loop (gcd_fuel b) a b = Some (Z.gcd a b).
Proof.
  intros a b Ha Hb. unfold gcd_fuel. apply gcd_loop_step; try assumption.
  pose proof (Z.log2_nonneg b).
  rewrite Z2Nat.id by lia.
  destruct (Z.eq_dec b 0) as [->|Hn]; [reflexivity|].
  apply Z.log2_spec. lia.
Qed.

Lemma gcd_spec : forall a b, 0 <= a -> 0 <= b -> gcd a b = Z.max (Z.gcd a b) 1.
Proof. intros a b Ha Hb. unfold gcd. rewrite gcd_loop_total by assumption. reflexivity. Qed.

Lemma frac_new_nonzero : forall n d, d <> 0 ->
  let g := Z.gcd n d in
  frac_new n d = Frac (Z.sgn d * (n / g)) (Z.abs d / g).
Proof.
  intros n d Hd g. unfold frac_new.
  destruct (Z.eqb_spec d 0) as [|_]; [lia|].
  rewrite gcd_spec by lia. rewrite Z.gcd_abs_l, Z.gcd_abs_r. fold g.
  assert (Hg : 0 < g).
  { unfold g. pose proof (Z.gcd_nonneg n d).
    destruct (Z.eq_dec (Z.gcd n d) 0) as [E|]; [|lia].
    apply Z.gcd_eq_0_r in E. lia. }
  replace (Z.max g 1) with g by lia.
  destruct (Z.gcd_divide_l n d) as [n' Hn']. destruct (Z.gcd_divide_r n d) as [d' Hd'].
  fold g in Hn', Hd'.
  cbv zeta.
  rewrite Hn', Hd'. rewrite Z.div_mul by lia.
  f_equal.
  - destruct (Z.ltb_spec (d' * g) 0).
    + replace (-1 * (n' * g)) with ((- n') * g) by ring.
      rewrite Z.quot_mul by lia. replace (Z.sgn (d' * g)) with (-1) by lia. ring.
    + replace (1 * (n' * g)) with (n' * g) by ring.
      rewrite Z.quot_mul by lia. replace (Z.sgn (d' * g)) with 1 by lia. ring.
  - rewrite Z.abs_mul. rewrite (Z.abs_eq g) by lia. rewrite Z.div_mul by lia.
    destruct (Z.ltb_spec (d' * g) 0).
    + replace (-1 * (d' * g)) with ((- d') * g) by ring.
      rewrite Z.quot_mul by lia. lia.
    + replace (1 * (d' * g)) with (d' * g) by ring.
      rewrite Z.quot_mul by lia. lia.
Qed.

Lemma frac_new_canonical : forall n d, canonical (frac_new n d).
Proof.
  intros n d. destruct (Z.eq_dec d 0) as [->|Hd].
  - unfold frac_new. cbn. split; cbn; [lia|reflexivity].
  - rewrite frac_new_nonzero by assumption.
    set (g := Z.gcd n d).
    assert (Hg : 0 < g).
    { unfold g. pose proof (Z.gcd_nonneg n d).
      destruct (Z.eq_dec (Z.gcd n d) 0) as [E|]; [|lia].
      apply Z.gcd_eq_0_r in E. lia. }
    destruct (Z.gcd_divide_r n d) as [d' Hd']. fold g in Hd'.
    split; cbn [num den].
    + rewrite Hd', Z.abs_mul, (Z.abs_eq g), Z.div_mul by lia. nia.
    + pose proof (Z.gcd_div_gcd n d g ltac:(lia) eq_refl) as Hc.
      rewrite Z.gcd_comm.
      replace (Z.abs d / g) with (Z.abs (d / g)).
      2:{ rewrite Hd', Z.abs_mul, (Z.abs_eq g), !Z.div_mul by lia. reflexivity. }
      rewrite Z.gcd_abs_l.
      destruct (Z.sgn_spec d) as [[_ E]|[[E0 _]|[_ E]]]; rewrite ?E; try lia.
      * rewrite Z.mul_1_l. rewrite Z.gcd_comm. exact Hc.
      * replace (-1 * (n / g)) with (- (n / g)) by ring.
        rewrite Z.gcd_opp_r, Z.gcd_comm. exact Hc.
Qed.

Lemma ratio_zero_den : forall n, (ratio n 0 == 0)%Q.
Proof. intros n. unfold ratio, Qdiv, Qinv; cbn. rewrite Qmult_0_r. reflexivity. Qed.

Lemma inject_nonzero : forall z, z <> 0 -> ~ (inject_Z z == 0)%Q.
Proof. intros z Hz H. unfold Qeq, inject_Z in H; cbn in H. lia. Qed.

Ltac qnz := repeat split; apply inject_nonzero; lia.

Lemma ratio_eq : forall n d n' d', d <> 0 -> d' <> 0 ->
  ((ratio n d == ratio n' d')%Q <-> n * d' = n' * d).
Proof.
  intros n d n' d' Hd Hd'. unfold ratio. split; intros H.
  - apply (Qmult_inj_r _ _ (inject_Z d * inject_Z d')) in H.
    2:{ rewrite <- inject_Z_mult. apply inject_nonzero. nia. }
    assert (E : (inject_Z (n * d') == inject_Z (n' * d))%Q).
    { rewrite !inject_Z_mult.
      setoid_replace (inject_Z n * inject_Z d')%Q
        with (inject_Z n / inject_Z d * (inject_Z d * inject_Z d'))%Q
        by (field; qnz).
      rewrite H. field; qnz. }
    unfold Qeq in E; cbn in E. lia.
  - assert (E : (inject_Z n * inject_Z d' == inject_Z n' * inject_Z d)%Q)
      by (rewrite <- !inject_Z_mult, H; reflexivity).
    setoid_replace (inject_Z n / inject_Z d)%Q
      with (inject_Z n * inject_Z d' * / (inject_Z d * inject_Z d'))%Q
      by (field; qnz).
    rewrite E. field; qnz.
Qed.

Lemma frac_new_value : forall n d, (value (frac_new n d) == ratio n d)%Q.
Proof.
  intros n d. destruct (Z.eq_dec d 0) as [->|Hd].
  - rewrite ratio_zero_den. unfold frac_new; cbn. reflexivity.
  - unfold value. pose proof (frac_new_canonical n d) as [Hp _].
    apply ratio_eq; [lia|assumption|].
    rewrite frac_new_nonzero by assumption. cbn [num den].
    set (g := Z.gcd n d).
    assert (Hg : 0 < g).
    { unfold g. pose proof (Z.gcd_nonneg n d).
      destruct (Z.eq_dec (Z.gcd n d) 0) as [E|]; [|lia].
      apply Z.gcd_eq_0_r in E. lia. }
    destruct (Z.gcd_divide_l n d) as [n' Hn']. destruct (Z.gcd_divide_r n d) as [d' Hd'].
    fold g in Hn', Hd'. clearbody g. subst n d.
    rewrite Z.abs_mul, (Z.abs_eq g), !Z.div_mul by lia.
    assert (0 < Z.abs d') by lia.
    destruct (Z.sgn_spec (d' * g)) as [[? E]|[[? _]|[? E]]]; rewrite ?E; [| lia |].
    + rewrite Z.abs_eq by nia. ring.
    + rewrite Z.abs_neq by nia. ring.
Qed.

Lemma canonical_eq_iff : forall f g, canonical f -> canonical g ->
  (f = g <-> (value f == value g)%Q).
Proof.
  intros [n d] [n' d'] [Hd Hc] [Hd' Hc']; cbn in *. unfold value; cbn.
  split; [intros H; inversion H; reflexivity|].
  intros H. apply (proj1 (ratio_eq n d n' d' ltac:(lia) ltac:(lia))) in H.
  assert (D1 : (d | d')).
  { apply Z.gauss with n. exists n'. rewrite H. ring. rewrite Z.gcd_comm. exact Hc. }
  assert (D2 : (d' | d)).
  { apply Z.gauss with n'. exists n. rewrite <- H. ring. rewrite Z.gcd_comm. exact Hc'. }
  assert (d = d') by (apply Z.divide_antisym_nonneg; try lia; assumption).
  subst d'. f_equal. nia.
Qed.

Lemma ratio_add : forall n d n' d', d <> 0 -> d' <> 0 ->
  (ratio (n * d' + n' * d) (d * d') == ratio n d + ratio n' d')%Q.
Proof.
  intros. unfold ratio. rewrite inject_Z_plus, !inject_Z_mult.
  field; qnz.
Qed.

Lemma frac_add_value : forall a b, canonical a -> canonical b ->
  (value (frac_add a b) == value a + value b)%Q.
Proof.
  intros a b [Ha _] [Hb _]. unfold frac_add. rewrite frac_new_value.
  apply ratio_add; lia.
Qed.

Lemma frac_sub_value : forall a b, canonical a -> canonical b ->
  (value (frac_sub a b) == value a - value b)%Q.
Proof.
  intros a b [Ha _] [Hb _]. unfold frac_sub. rewrite frac_new_value.
  unfold value, ratio. rewrite Z.sub_opp_r || idtac.
  unfold Z.sub. rewrite inject_Z_plus, inject_Z_opp, !inject_Z_mult.
  field; qnz.
Qed.

Lemma frac_mul_value : forall a b, canonical a -> canonical b ->
  (value (frac_mul a b) == value a * value b)%Q.
Proof.
  intros a b [Ha _] [Hb _]. unfold frac_mul. rewrite frac_new_value.
  unfold value, ratio. rewrite !inject_Z_mult.
  field; qnz.
Qed.

Lemma frac_mul_ratio_value : forall a n d, canonical a ->
  (value (frac_mul_ratio a n d) == value a * ratio n d)%Q.
Proof.
  intros a n d [Ha _]. unfold frac_mul_ratio. rewrite frac_new_value.
  destruct (Z.eq_dec d 0) as [->|Hd].
  - rewrite Z.mul_0_r, !ratio_zero_den. ring.
  - unfold value, ratio. rewrite !inject_Z_mult.
    field; qnz.
Qed.

Lemma Qfloor_ratio : forall n d, 0 < d -> Qfloor (ratio n d) = n / d.
Proof.
  intros n d Hd.
  assert (E : (ratio n d == n # Z.to_pos d)%Q).
  { unfold ratio. rewrite Qmake_Qdiv. rewrite Z2Pos.id by lia. reflexivity. }
  rewrite E. cbn. rewrite Z2Pos.id by lia. reflexivity.
Qed.

Lemma frac_floor_div : forall f, 0 < den f -> frac_floor f = num f / den f.
Proof.
  intros f Hd. unfold frac_floor. destruct (Z.leb_spec 0 (num f)) as [H|H].
  - apply Z.quot_div_nonneg; lia.
  - replace (num f - den f + 1) with (- (den f - num f - 1)) by ring.
    rewrite Z.quot_opp_l by lia. rewrite Z.quot_div_nonneg by lia.
    apply Z.div_unique with (r := den f - 1 - (den f - num f - 1) mod den f).
    + pose proof (Z.mod_pos_bound (den f - num f - 1) (den f) Hd). lia.
    + pose proof (Z.div_mod (den f - num f - 1) (den f) ltac:(lia)). lia.
Qed.

Lemma frac_floor_value : forall f, canonical f -> frac_floor f = Qfloor (value f).
Proof.
  intros f [Hd _]. rewrite frac_floor_div by assumption.
  unfold value. now rewrite Qfloor_ratio.
Qed.

Lemma frac_fract_value : forall f, canonical f ->
  (value (frac_fract f) == value f - inject_Z (Qfloor (value f)))%Q.
Proof.
  intros f Hf. rewrite <- frac_floor_value by assumption. destruct Hf as [Hd _].
  unfold frac_fract. rewrite frac_new_value. unfold value, ratio.
  unfold Z.sub. rewrite inject_Z_plus, inject_Z_opp, inject_Z_mult.
  field; qnz.
Qed.

Lemma Qfloor_bounds : forall q, (inject_Z (Qfloor q) <= q)%Q /\ (q < inject_Z (Qfloor q) + 1)%Q.
Proof.
  intros q. split; [apply Qfloor_le|].
  pose proof (Qlt_floor q) as H. rewrite inject_Z_plus in H. exact H.
Qed.

Lemma frac_fract_range : forall f, canonical f ->
  (0 <= value (frac_fract f))%Q /\ (value (frac_fract f) < 1)%Q.
Proof.
  intros f Hf. rewrite frac_fract_value by assumption.
  destruct (Qfloor_bounds (value f)) as [H1 H2]. split.
  - apply (Qplus_le_l _ _ (inject_Z (Qfloor (value f)))). ring_simplify. exact H1.
  - apply (Qplus_lt_l _ _ (inject_Z (Qfloor (value f)))). ring_simplify.
    rewrite Qplus_comm in H2. rewrite Qplus_comm. rewrite Qplus_comm in H2. 
    rewrite Qplus_comm. exact H2.
Qed.

Lemma frac_floor_fract : forall f, canonical f ->
  (inject_Z (frac_floor f) + value (frac_fract f) == value f)%Q.
Proof.
  intros f Hf. rewrite frac_fract_value, frac_floor_value by assumption. ring.
Qed.

Lemma Qfloor_proper : forall x y, (x == y)%Q -> Qfloor x = Qfloor y.
Proof. intros x y H. now rewrite H. Qed.

Lemma feval_correct : forall e, canonical (feval e) /\ (value (feval e) == qeval e)%Q.
Proof.
  induction e as [n|n d|a [Ca Va] b [Cb Vb]|a [Ca Va] b [Cb Vb]|a [Ca Va] b [Cb Vb]
                 |a [Ca Va] n d|a [Ca Va]]; cbn [feval qeval]; split;
    try apply frac_new_canonical.
  - unfold frac_of_int. rewrite frac_new_value. unfold ratio. field.
  - apply frac_new_value.
  - now rewrite frac_add_value, Va, Vb.
  - now rewrite frac_sub_value, Va, Vb.
  - now rewrite frac_mul_value, Va, Vb.
  - now rewrite frac_mul_ratio_value, Va.
  - rewrite frac_fract_value by assumption. rewrite (Qfloor_proper _ _ Va), Va. reflexivity.
Qed.

(** ** The carry loop *)

Lemma Qfloor_plus_int : forall q z, Qfloor (q + inject_Z z) = Qfloor q + z.
Proof.
  intros q z.
  destruct (Qfloor_bounds q) as [A B]. destruct (Qfloor_bounds (q + inject_Z z)) as [C D].
  assert (L1 : (inject_Z (Qfloor q + z) < inject_Z (Qfloor (q + inject_Z z) + 1))%Q).
  { rewrite !inject_Z_plus. apply Qle_lt_trans with (q + inject_Z z)%Q; [|exact D].
    apply Qplus_le_compat; [exact A|apply Qle_refl]. }
  assert (L2 : (inject_Z (Qfloor (q + inject_Z z)) < inject_Z (Qfloor q + z + 1))%Q).
  { apply Qle_lt_trans with (q + inject_Z z)%Q; [exact C|].
    rewrite !inject_Z_plus. 
    setoid_replace (inject_Z (Qfloor q) + inject_Z z + inject_Z 1)%Q
      with ((inject_Z (Qfloor q) + 1) + inject_Z z)%Q by ring.
    apply Qplus_lt_l. exact B. }
  rewrite <- Zlt_Qlt in L1, L2. lia.
Qed.

Lemma floor_unit_0 : forall q, (0 <= q)%Q -> (q < 1)%Q -> Qfloor (q + 0) = 0.
Proof.
  intros q H0 H1. rewrite (Qfloor_proper _ _ (Qplus_0_r q)).
  assert (A : (inject_Z 0 <= q)%Q) by exact H0.
  pose proof (Qfloor_resp_le _ _ A) as L. rewrite Qfloor_Z in L.
  destruct (Qfloor_bounds q) as [B _].
  assert (C : (inject_Z (Qfloor q) < inject_Z 1)%Q) by (eapply Qle_lt_trans; eassumption).
  rewrite <- Zlt_Qlt in C. lia.
Qed.

Lemma carry_loop_prefix : forall shares rem k,
  canonical rem -> (0 <= value rem)%Q -> (value rem < 1)%Q ->
  Forall canonical shares ->
  (k <= length shares)%nat ->
  zsum (firstn k (carry_loop rem shares))
  = Qfloor (value rem + qsum (map value (firstn k shares))).
Proof.
  induction shares as [|s rest IH]; intros rem k Hc H0 H1 HF Hk.
  - cbn in Hk. replace k with 0%nat by lia. cbn [firstn carry_loop zsum map qsum].
    symmetry. apply floor_unit_0; assumption.
  - destruct k as [|k].
    + cbn [firstn carry_loop zsum map qsum]. symmetry. apply floor_unit_0; assumption.
    + inversion HF as [|? ? Cs HF']; subst.
      cbn [carry_loop firstn zsum map qsum].
      assert (Craw : canonical (frac_add s rem)) by apply frac_new_canonical.
      assert (Vraw := frac_add_value s rem Cs Hc).
      destruct (frac_fract_range _ Craw) as [R0 R1].
      rewrite IH; [| apply frac_new_canonical | assumption | assumption | assumption | cbn in Hk; lia ].
      rewrite (frac_floor_value _ Craw).
      rewrite Z.add_comm, <- Qfloor_plus_int.
      apply Qfloor_proper. rewrite (frac_fract_value _ Craw).
      set (F := Qfloor (value (frac_add s rem))). rewrite Vraw. ring.
Qed.

Lemma zsum_app : forall a b, zsum (a ++ b) = zsum a + zsum b.
Proof. induction a as [|x a IH]; intros b; cbn; [reflexivity|rewrite IH; ring]. Qed.

Lemma qsum_app : forall a b, (qsum (a ++ b) == qsum a + qsum b)%Q.
Proof. induction a as [|x a IH]; intros b; cbn; [ring|rewrite IH; ring]. Qed.

Lemma carry_loop_length : forall shares rem, length (carry_loop rem shares) = length shares.
Proof. induction shares as [|s r IH]; intros rem; cbn; [reflexivity|now rewrite IH]. Qed.

Lemma value_zero : (value frac_zero == 0)%Q.
Proof. reflexivity. Qed.

Lemma canonical_zero : canonical frac_zero.
Proof. split; cbn; [lia|reflexivity]. Qed.

Lemma carry_prefix_exact : forall shares k,
  Forall canonical shares -> (k <= length shares)%nat ->
  zsum (firstn k (carry_loop frac_zero shares)) = Qfloor (qsum (map value (firstn k shares))).
Proof.
  intros shares k HF Hk.
  rewrite carry_loop_prefix; try assumption; try apply canonical_zero; try reflexivity.
  - apply Qfloor_proper. rewrite value_zero. ring.
  - rewrite value_zero. apply Qle_refl.
Qed.

Lemma carry_total_exact : forall shares total,
  Forall canonical shares -> (qsum (map value shares) == inject_Z total)%Q ->
  zsum (carry_loop frac_zero shares) = total.
Proof.
  intros shares total HF HT.
  rewrite <- (firstn_all (carry_loop frac_zero shares)).
  rewrite carry_loop_length, carry_prefix_exact by (auto; lia).
  rewrite firstn_all, (Qfloor_proper _ _ HT). apply Qfloor_Z.
Qed.

Lemma carry_loop_each : forall shares rem k s c,
  canonical rem -> (0 <= value rem)%Q -> (value rem < 1)%Q ->
  Forall canonical shares ->
  nth_error shares k = Some s -> nth_error (carry_loop rem shares) k = Some c ->
  Qfloor (value s) <= c <= Qceiling (value s).
Proof.
  induction shares as [|s0 rest IH]; intros rem k s c Hc H0 H1 HF Hs Hcn.
  - destruct k; discriminate.
  - inversion HF as [|? ? Cs HF']; subst.
    assert (Craw : canonical (frac_add s0 rem)) by apply frac_new_canonical.
    destruct (frac_fract_range _ Craw) as [R0 R1].
    destruct k as [|k]; cbn in Hs, Hcn.
    + injection Hs as <-. injection Hcn as <-.
      rewrite (frac_floor_value _ Craw).
      rewrite (Qfloor_proper _ _ (frac_add_value s0 rem Cs Hc)).
      assert (L : Qfloor (value s0) <= Qfloor (value s0 + value rem)).
      { apply Qfloor_resp_le. rewrite <- (Qplus_0_r (value s0)) at 1.
        apply Qplus_le_compat; [apply Qle_refl|exact H0]. }
      assert (U : Qfloor (value s0 + value rem) < Qceiling (value s0) + 1).
      { rewrite Zlt_Qlt. apply Qle_lt_trans with (value s0 + value rem)%Q; [apply Qfloor_le|].
        rewrite inject_Z_plus. apply Qle_lt_trans with (inject_Z (Qceiling (value s0)) + value rem)%Q.
        - apply Qplus_le_compat; [apply Qle_ceiling|apply Qle_refl].
        - apply Qplus_lt_r. exact H1. }
      lia.
    + eapply IH; [| | | exact HF' | exact Hs | exact Hcn];
        [apply frac_new_canonical|assumption|assumption].
Qed.
