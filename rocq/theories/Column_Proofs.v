From Coq Require Import ZArith QArith Qround Qminmax List Bool Lia Lqa.
From Verif Require Import Fraction_Model Fraction_Spec Fraction_Proofs Canvas_Model Layout_Model Layout_Spec Layout_Proofs.
Import ListNotations.
Open Scope Z_scope.
Local Arguments Z.add : simpl never.
Local Arguments Z.sub : simpl never.
Local Arguments Z.mul : simpl never.
Local Arguments Z.max : simpl never.

Lemma some_eq : forall (A : Type) (x y : A), Some x = Some y -> x = y.
Proof. congruence. Qed.
Lemma floor_le : forall a b, (a <= b)%Q -> Qfloor a <= Qfloor b.
Proof. intros; apply Qfloor_resp_le; auto. Qed.
Lemma floor_0 : forall q, (0 <= q)%Q -> 0 <= Qfloor q.
Proof. intros q H. assert (E : 0 = Qfloor 0) by reflexivity. rewrite E. apply floor_le; auto. Qed.

Lemma Qmax_case' : forall a b : Q, (Qmax a b == a /\ b <= a)%Q \/ (Qmax a b == b /\ a <= b)%Q.
Proof.
  intros a b. destruct (Qlt_le_dec a b) as [H|H].
  - right. split; [apply Q.max_r; lra|lra].
  - left. split; [apply Q.max_l; lra|lra].
Qed.
Lemma Qmin_case' : forall a b : Q, (Qmin a b == a /\ a <= b)%Q \/ (Qmin a b == b /\ b <= a)%Q.
Proof.
  intros a b. destruct (Qlt_le_dec a b) as [H|H].
  - left. split; [apply Q.min_l; lra|lra].
  - right. split; [apply Q.min_r; lra|lra].
Qed.
Lemma collapsed_max : forall a b, (collapsed a b == Qmax a b)%Q.
Proof.
  intros a b. unfold collapsed. destruct (Qle_bool a b) eqn:E.
  - apply Qle_bool_iff in E. symmetry. apply Q.max_r. auto.
  - assert (b < a)%Q. { apply Qnot_le_lt. intro H. apply Qle_bool_iff in H. congruence. }
    symmetry. apply Q.max_l. lra.
Qed.

(** ** Heights are non-negative *)

Lemma qz_nonneg : forall z, 0 <= z -> (0 <= qz z)%Q.
Proof. intros. unfold qz. rewrite <- (Zle_Qle 0). auto. Qed.

Lemma fraction_unit_nonneg : forall cs a v, (0 <= fraction_unit cs a v)%Q.
Proof.
  intros. unfold fraction_unit.
  set (T := sumq _). set (R := Qmax _ _).
  destruct (Qle_bool T 0) eqn:E1; simpl; [unfold Qle; simpl; lia|].
  destruct (Qle_bool R 0) eqn:E2; simpl; [unfold Qle; simpl; lia|].
  assert (0 < T)%Q by (apply Qnot_le_lt; intro H; apply Qle_bool_iff in H; congruence).
  assert (0 < R)%Q by (apply Qnot_le_lt; intro H0; apply Qle_bool_iff in H0; congruence).
  unfold Qdiv. apply Qmult_le_0_compat; [lra|]. apply Qinv_le_0_compat. lra.
Qed.

Lemma raw_height_nonneg : forall u c a v, nonneg_child c -> nonneg_region a -> nonneg_viewport v -> (0 <= u)%Q ->
  (0 <= raw_height u c a v)%Q.
Proof.
  intros u c a v Hc [Ra Rb] [Va Vb] Hu. pose proof Hc as Hc'. unfold nonneg_child in Hc'.
  assert (Hh : nonneg_scalar (l_height (ch_style c))) by tauto.
  assert (Hdh : 0 <= ch_dh c) by tauto. assert (Hih : forall w, 0 <= ch_ih c w) by tauto.
  unfold raw_height. destruct (l_height (ch_style c)) as [[q un]|]; simpl in Hh.
  - cbn [s_unit s_value]. destruct un; try (apply pct_nonneg; auto; fail).
    + apply qz_nonneg. apply box_height_nonneg'; auto. apply trunc_nonneg; auto.
    + apply Qmult_le_0_compat; auto.
    + unfold intrinsic_height. apply qz_nonneg; auto.
  - destruct (is_fill c); auto. apply qz_nonneg; auto.
Qed.

Lemma constraint_q_nonneg : forall m a v, nonneg_scalar (Some m) -> nonneg_region a -> nonneg_viewport v ->
  (0 <= constraint_q m a v)%Q.
Proof.
  intros m a v H [A B] [C D]. simpl in H. unfold constraint_q.
  destruct (s_unit m); auto; apply pct_nonneg; auto.
Qed.

Lemma box_height_nonneg : forall u c a v, nonneg_child c -> nonneg_region a -> nonneg_viewport v -> (0 <= u)%Q ->
  (0 <= box_height u c a v)%Q.
Proof.
  intros u c a v Hc Ha Hv Hu. pose proof (raw_height_nonneg u c a v Hc Ha Hv Hu) as Hr.
  unfold nonneg_child in Hc.
  assert (H1 : nonneg_scalar (l_max_height (ch_style c))) by tauto.
  assert (H2 : nonneg_scalar (l_min_height (ch_style c))) by tauto.
  unfold box_height. set (h := raw_height _ _ _ _) in *.
  set (h1 := match l_max_height (ch_style c) with Some m => _ | None => _ end).
  assert (B1 : (0 <= h1)%Q).
  { unfold h1. destruct (l_max_height (ch_style c)) as [m|]; auto.
    pose proof (constraint_q_nonneg m a v H1 Ha Hv). destruct (Qmin_case' h (constraint_q m a v)) as [[E ?]|[E ?]]; lra. }
  set (h2 := match l_min_height (ch_style c) with Some m => _ | None => _ end).
  assert (B2 : (0 <= h2)%Q).
  { unfold h2. destruct (l_min_height (ch_style c)) as [m|]; auto.
    destruct (Qmax_case' h1 (constraint_q m a v)) as [[E ?]|[E ?]]; lra. }
  destruct (reduce_height c); auto. apply Q.le_max_r.
Qed.

(** ** Placing a column *)

Lemma col_place_length : forall l u f prev y a v, length (col_place u f prev y a v l) = length l.
Proof. induction l as [|c l IH]; intros; simpl; auto. Qed.
Lemma vertical_length : forall cs a v, length (vertical_arrange cs a v) = length cs.
Proof. intros; apply col_place_length. Qed.
Lemma col_place_index : forall l u f prev y a v, map pl_index (col_place u f prev y a v l) = map ch_index l.
Proof. induction l as [|c l IH]; intros; simpl; f_equal; auto. Qed.

(* exact position of each child *)
Lemma col_place_gap : forall l u first prev y a v i p q c d,
  (forall e, In e l -> (0 <= box_height u e a v)%Q) ->
  nth_error (col_place u first prev y a v l) i = Some p ->
  nth_error (col_place u first prev y a v l) (S i) = Some q ->
  nth_error l i = Some c -> nth_error l (S i) = Some d ->
  exists b, p_bottom p = Qfloor b /\ p_top q = Qfloor (b + collapsed (l_mb (ch_style c)) (l_mt (ch_style d))).
Proof.
  induction l as [|c0 l IH]; intros u first prev y a v i p q c d Hb Hp Hq Hc Hd; [destruct i; discriminate|].
  destruct i as [|i].
  - destruct l as [|d0 l]; [discriminate|].
    cbn [col_place nth_error] in *. injection Hc as ->. injection Hd as ->. apply some_eq in Hp. apply some_eq in Hq. subst p q.
    set (y0 := (y + (if first then l_mt (ch_style c) else Qmax (l_mt (ch_style c) - prev) 0))%Q). exists (y0 + box_height u c a v)%Q. split.
    + unfold p_bottom. cbn [pl_region rg_y rg_h].
      assert (Qfloor y0 <= Qfloor (y0 + box_height u c a v)).
      { apply floor_le. specialize (Hb c (or_introl eq_refl)). lra. }
      lia.
    + unfold p_top. cbn [pl_region rg_y]. apply Qfloor_proper. rewrite collapsed_max.
      destruct (Qmax_case' (l_mt (ch_style d) - l_mb (ch_style c)) 0) as [[E1 L1]|[E1 L1]];
      destruct (Qmax_case' (l_mb (ch_style c)) (l_mt (ch_style d))) as [[E2 L2]|[E2 L2]]; lra.
  - cbn [col_place nth_error] in Hp, Hq, Hc, Hd. eapply IH; [|exact Hp|exact Hq|exact Hc|exact Hd].
    intros e He. apply Hb. right; auto.
Qed.

Lemma heights_nonneg_all : forall cs a v, Forall nonneg_child cs -> nonneg_region a -> nonneg_viewport v ->
  forall e, In e cs -> (0 <= box_height (fraction_unit cs a v) e a v)%Q.
Proof.
  intros cs a v Hc Ha Hv e He. rewrite Forall_forall in Hc.
  apply box_height_nonneg; auto. apply fraction_unit_nonneg.
Qed.

Lemma vertical_gap : forall cs a v i p q c d,
  Forall nonneg_child cs -> nonneg_region a -> nonneg_viewport v ->
  nth_error (vertical_arrange cs a v) i = Some p -> nth_error (vertical_arrange cs a v) (S i) = Some q ->
  nth_error cs i = Some c -> nth_error cs (S i) = Some d ->
  let m := collapsed (l_mb (ch_style c)) (l_mt (ch_style d)) in
  p_bottom p + Qfloor m <= p_top q <= p_bottom p + Qceiling m.
Proof.
  intros cs a v i p q c d Hcs Ha Hv Hp Hq Hc Hd m.
  destruct (col_place_gap _ _ _ _ _ _ _ _ _ _ _ _ (heights_nonneg_all cs a v Hcs Ha Hv) Hp Hq Hc Hd) as (b & E1 & E2).
  rewrite E1, E2. fold m. split.
  - rewrite <- Qfloor_plus_int. apply floor_le. pose proof (Qfloor_le m). lra.
  - rewrite <- Qfloor_plus_int. apply floor_le. pose proof (Qle_ceiling m). lra.
Qed.

Lemma col_place_height_nonneg : forall l u first prev y a v p, In p (col_place u first prev y a v l) -> 0 <= p_height p.
Proof.
  induction l as [|c l IH]; intros u first prev y a v p H; simpl in H; [contradiction|].
  destruct H as [<-|H]; [unfold p_height; cbn [pl_region rg_h]; lia|eauto].
Qed.

Lemma vertical_order : forall cs a v i j p q, Forall nonneg_child cs -> nonneg_region a -> nonneg_viewport v ->
  (i < j)%nat -> nth_error (vertical_arrange cs a v) i = Some p -> nth_error (vertical_arrange cs a v) j = Some q ->
  p_bottom p <= p_top q.
Proof.
  intros cs a v i j p q Hc Ha Hv Hij Hp Hq.
  apply (chain_order p_top p_bottom (vertical_arrange cs a v)) with (i := i) (j := j); auto.
  - intros r Hr. pose proof (col_place_height_nonneg _ _ _ _ _ _ _ _ Hr). unfold p_top, p_bottom, p_height in *. lia.
  - intros k r s Hr Hs.
    destruct (nth_error_ex _ cs k) as [c Hck]; [rewrite <- (vertical_length cs a v); apply nth_error_Some; congruence|].
    destruct (nth_error_ex _ cs (S k)) as [d Hd]; [rewrite <- (vertical_length cs a v); apply nth_error_Some; congruence|].
    destruct (vertical_gap cs a v k r s c d) as [L _]; auto.
    rewrite Forall_forall in Hc. pose proof (Hc _ (nth_error_In _ _ Hck)) as Hn.
    unfold nonneg_child in Hn. assert (Hm : (0 <= l_mb (ch_style c))%Q) by tauto.
    assert (0 <= Qfloor (collapsed (l_mb (ch_style c)) (l_mt (ch_style d)))); [|lia].
    apply floor_0. rewrite collapsed_max.
    destruct (Qmax_case' (l_mb (ch_style c)) (l_mt (ch_style d))) as [[E ?]|[E ?]]; lra.
Qed.

(* each height is within one of the exact one *)
Lemma col_place_height : forall l u first prev y a v i p c,
  nth_error (col_place u first prev y a v l) i = Some p -> nth_error l i = Some c ->
  (0 <= box_height u c a v)%Q ->
  (inject_Z (p_height p) - 1 < box_height u c a v)%Q /\ (box_height u c a v < inject_Z (p_height p) + 1)%Q.
Proof.
  induction l as [|c0 l IH]; intros u first prev y a v i p c Hp Hc Hb; [destruct i; discriminate|].
  destruct i as [|i].
  - cbn [col_place nth_error] in *. injection Hc as ->. apply some_eq in Hp. subst p.
    unfold p_height. cbn [pl_region rg_h].
    set (y0 := (y + (if first then l_mt (ch_style c) else Qmax (l_mt (ch_style c) - prev) 0))%Q). set (h := box_height u c a v) in *.
    assert (Qfloor y0 <= Qfloor (y0 + h)) by (apply floor_le; lra).
    rewrite Z.max_l by lia. unfold Z.sub. rewrite inject_Z_plus, inject_Z_opp.
    pose proof (Qfloor_bounds y0). pose proof (Qfloor_bounds (y0 + h)). lra.
  - cbn [col_place nth_error] in Hp, Hc. eapply IH; eauto.
Qed.

(* no margins: the children tile the column *)
Lemma col_place_tiles : forall l u first prev y a v,
  Forall no_vertical_margins l -> (prev == 0)%Q -> (forall e, In e l -> (0 <= box_height u e a v)%Q) ->
  (forall p, nth_error (col_place u first prev y a v l) 0 = Some p -> p_top p = Qfloor y) /\
  (forall i p q, nth_error (col_place u first prev y a v l) i = Some p ->
     nth_error (col_place u first prev y a v l) (S i) = Some q -> p_top q = p_bottom p) /\
  zsum (map p_height (col_place u first prev y a v l))
  = Qfloor (y + qsum (map (fun c => box_height u c a v) l)) - Qfloor y.
Proof.
  induction l as [|c l IH]; intros u first prev y a v Hm Hprev Hb.
  - split; [intros p H; discriminate|]. split; [intros [|i] p q H; discriminate|].
    cbn [map qsum zsum col_place]. assert (E : Qfloor (y + 0) = Qfloor y) by (apply Qfloor_proper; ring). rewrite E. lia.
  - pose proof (Forall_inv Hm) as M. pose proof (Forall_inv_tail Hm) as HMt. destruct M as [M1 M2].
    cbn [col_place].
    set (y0 := (y + (if first then l_mt (ch_style c) else Qmax (l_mt (ch_style c) - prev) 0))%Q).
    assert (Ey : (y0 == y)%Q).
    { unfold y0. destruct first; [lra|]. destruct (Qmax_case' (l_mt (ch_style c) - prev) 0) as [[E ?]|[E ?]]; lra. }
    set (h := box_height u c a v).
    assert (Hh : (0 <= h)%Q) by (apply Hb; left; auto).
    assert (F : Qfloor y0 <= Qfloor (y0 + h)) by (apply floor_le; lra).
    destruct (IH u false (l_mb (ch_style c)) (y0 + h + l_mb (ch_style c))%Q a v HMt M2) as (A & B & C).
    { intros e He. apply Hb. right; auto. }
    assert (Fy : Qfloor y0 = Qfloor y) by (apply Qfloor_proper; auto).
    assert (Fn : Qfloor (y0 + h + l_mb (ch_style c)) = Qfloor (y0 + h)) by (apply Qfloor_proper; lra).
    split; [|split].
    + intros p Hp. cbn [nth_error] in Hp. apply some_eq in Hp. subst p. unfold p_top. cbn [pl_region rg_y]. auto.
    + intros [|i] p q Hp Hq; cbn [nth_error] in Hp, Hq.
      * apply some_eq in Hp; subst p. rewrite (A q Hq). unfold p_bottom. cbn [pl_region rg_y rg_h]. lia.
      * eapply B; eauto.
    + cbn [map zsum qsum]. rewrite C. unfold p_height at 1. cbn [pl_region rg_h]. fold h.
      assert (Fs : Qfloor (y0 + h + l_mb (ch_style c) + qsum (map (fun c => box_height u c a v) l))
                 = Qfloor (y + (h + qsum (map (fun c => box_height u c a v) l)))) by (apply Qfloor_proper; lra).
      rewrite Fs. lia.
Qed.

(** ** fr columns fill the container *)

Lemma sumq_qsum_acc : forall l a, (fold_left Qplus l a == a + qsum l)%Q.
Proof. induction l as [|x l IH]; intros a; cbn [fold_left qsum]; [ring|]. rewrite IH. ring. Qed.
Lemma sumq_qsum : forall l, (sumq l == qsum l)%Q.
Proof. intros. unfold sumq. rewrite sumq_qsum_acc. ring. Qed.

Lemma v_margins_zero : forall l first prev, Forall no_vertical_margins l -> (prev == 0)%Q -> (v_margins first prev l == 0)%Q.
Proof.
  induction l as [|c l IH]; intros first prev Hm Hp; cbn [v_margins]; [reflexivity|].
  pose proof (Forall_inv Hm) as M. pose proof (Forall_inv_tail Hm) as HMt. destruct M as [M1 M2].
  rewrite (IH false _ HMt M2).
  destruct first; [lra|]. destruct (Qmax_case' (l_mt (ch_style c) - prev) 0) as [[E ?]|[E ?]]; lra.
Qed.

Lemma box_height_plain : forall u c a v, no_height_limits c -> no_vertical_margins c -> (0 <= raw_height u c a v)%Q ->
  (box_height u c a v == raw_height u c a v)%Q.
Proof.
  intros u c a v [L1 L2] [M1 M2] Hr. unfold box_height. rewrite L1, L2.
  destruct (reduce_height c); [|reflexivity].
  destruct (Qmax_case' (raw_height u c a v - l_mt (ch_style c) - l_mb (ch_style c)) 0) as [[E L]|[E L]]; lra.
Qed.

Lemma raw_split : forall u c a v, rg_h a = vp_h v ->
  (raw_height u c a v == fixed_height c a v + fr_height c * u)%Q.
Proof.
  intros u c a v E. unfold raw_height, fixed_height, fr_height.
  destruct (l_height (ch_style c)) as [[q un]|]; cbn [s_unit s_value].
  - destruct un; try rewrite E; ring.
  - destruct (is_fill c); ring.
Qed.

Lemma qsum_raw_split : forall u l a v, rg_h a = vp_h v ->
  (qsum (map (fun c => raw_height u c a v) l)
   == qsum (map (fun c => fixed_height c a v) l) + qsum (map fr_height l) * u)%Q.
Proof.
  intros u l a v E. induction l as [|c l IH]; cbn [map qsum]; [ring|].
  rewrite IH, (raw_split u c a v E). ring.
Qed.

Lemma qsum_ext : forall (A : Type) (f g : A -> Q) l, (forall x, In x l -> (f x == g x)%Q) ->
  (qsum (map f l) == qsum (map g l))%Q.
Proof.
  induction l as [|x l IH]; intros H; cbn [map qsum]; [reflexivity|].
  rewrite (H x (or_introl eq_refl)), IH; [reflexivity|]. intros; apply H; right; auto.
Qed.

Lemma vertical_fill : forall cs a v,
  Forall nonneg_child cs -> nonneg_region a -> nonneg_viewport v ->
  Forall no_height_limits cs -> Forall no_vertical_margins cs -> rg_h a = vp_h v ->
  (0 < qsum (map fr_height cs))%Q ->
  (qsum (map (fun c => fixed_height c a v) cs) < inject_Z (rg_h a))%Q ->
  zsum (map p_height (vertical_arrange cs a v)) = rg_h a.
Proof.
  intros cs a v Hn Ha Hv Hl Hm E Hfr Hfix. unfold vertical_arrange.
  set (u := fraction_unit cs a v).
  destruct (col_place_tiles cs u true 0 (qz (rg_y a)) a v Hm) as (_ & _ & S).
  { reflexivity. } { apply heights_nonneg_all; auto. }
  rewrite S.
  assert (Hu : (u == (inject_Z (rg_h a) - qsum (map (fun c => fixed_height c a v) cs)) / qsum (map fr_height cs))%Q).
  { unfold u, fraction_unit. set (T := sumq (map fr_height cs)). set (R := Qmax _ _).
    assert (ET : (T == qsum (map fr_height cs))%Q) by apply sumq_qsum.
    assert (ER : (R == inject_Z (rg_h a) - qsum (map (fun c => fixed_height c a v) cs))%Q).
    { unfold R. rewrite E. pose proof (v_margins_zero cs true 0 Hm (Qeq_refl 0)) as EV.
      pose proof (sumq_qsum (map (fun c => fixed_height c a v) cs)) as ES.
      rewrite E in Hfix. unfold qz.
      match goal with |- (Qmax ?x 0 == _)%Q => destruct (Qmax_case' x 0) as [[EE LL]|[EE LL]] end; lra. }
    destruct (Qle_bool T 0) eqn:B1; [apply Qle_bool_iff in B1; exfalso; lra|].
    destruct (Qle_bool R 0) eqn:B2; [apply Qle_bool_iff in B2; exfalso; lra|].
    cbn [negb andb]. rewrite ER, ET. reflexivity. }
  assert (ES : (qsum (map (fun c => box_height u c a v) cs) == inject_Z (rg_h a))%Q).
  { rewrite (qsum_ext _ _ (fun c => raw_height u c a v)).
    - rewrite qsum_raw_split by auto. rewrite Hu. field. lra.
    - intros c Hc. rewrite Forall_forall in *. apply box_height_plain; auto.
      apply raw_height_nonneg; auto. apply fraction_unit_nonneg. }
  assert (F1 : Qfloor (qz (rg_y a) + qsum (map (fun c => box_height u c a v) cs)) = rg_y a + rg_h a).
  { transitivity (Qfloor (inject_Z (rg_y a + rg_h a))); [|apply Qfloor_Z].
    apply Qfloor_proper. rewrite ES, inject_Z_plus. reflexivity. }
  rewrite F1. unfold qz. rewrite Qfloor_Z. lia.
Qed.
