From Coq Require Import ZArith QArith Qround Qminmax List Bool Arith Lia Lqa.
From Verif Require Import Fraction_Model Fraction_Spec Fraction_Proofs Canvas_Model Layout_Model Layout_Spec Layout_Proofs Column_Proofs Grid_Model Grid_Spec Grid_Proofs.
Import ListNotations.
Open Scope Z_scope.
Local Arguments Z.add : simpl never.
Local Arguments Z.sub : simpl never.
Local Arguments Z.mul : simpl never.
Local Arguments Z.max : simpl never.
Local Arguments Z.of_nat : simpl never.

Lemma trunc_int : forall q z, (q == inject_Z z)%Q -> trunc q = z.
Proof.
  intros [n d] z H. unfold Qeq in H. simpl in H. unfold trunc. simpl. rewrite Z.mul_1_r in H. subst n.
  apply Z.quot_mul. lia.
Qed.

Lemma thousandths_trunc : forall q, thousandths q -> (inject_Z (trunc (q * 1000)) == q * 1000)%Q.
Proof. intros q [k Hk]. rewrite (trunc_int _ _ Hk). symmetry. auto. Qed.

Definition frv (s : scalar) : Q := if is_fr s then s_value s else 0%Q.
Definition tot (ts : list scalar) : Q := qsum (map frv ts).

Lemma tot_thousandths : forall ts, Forall (fun s => is_fr s = true -> thousandths (s_value s)) ts -> thousandths (tot ts).
Proof.
  unfold tot. induction 1 as [|s ts Hs Ht IH]; cbn [map qsum].
  - exists 0. reflexivity.
  - destruct IH as [k Hk]. unfold frv at 1. destruct (is_fr s).
    + destruct (Hs eq_refl) as [j Hj]. exists (j + k). rewrite inject_Z_plus. lra.
    + exists k. lra.
Qed.

Lemma qsum_scale : forall (A : Type) (f : A -> Q) (k : Q) l, (qsum (map (fun x => f x * k) l) == qsum (map f l) * k)%Q.
Proof. induction l as [|x l IH]; cbn [map qsum]; [ring|]. rewrite IH. ring. Qed.

Lemma thousandths_proper : forall a b, (a == b)%Q -> thousandths a -> thousandths b.
Proof. intros a b E [k Hk]. exists k. rewrite <- E. auto. Qed.

(* the share of a fr track *)
Lemma fr_share_value : forall R v T, (0 < T)%Q -> thousandths v -> thousandths T ->
  (value (frac_new (R * trunc (v * 1000)) (trunc (T * 1000))) == inject_Z R * v / T)%Q.
Proof.
  intros R v T HT Hv HTh. rewrite frac_new_value. unfold ratio. rewrite inject_Z_mult.
  pose proof (thousandths_trunc _ Hv) as E1. pose proof (thousandths_trunc _ HTh) as E2.
  assert (NZ : ~ (inject_Z (trunc (T * 1000)) == 0)%Q) by lra.
  apply (Qmult_inj_r _ _ (inject_Z (trunc (T * 1000)) * T)).
  - intro X. assert (~ (T == 0)%Q) by lra. apply (Qmult_integral) in X. destruct X; auto.
  - transitivity (inject_Z R * inject_Z (trunc (v * 1000)) * T)%Q; [field; auto|].
    transitivity (inject_Z R * v * inject_Z (trunc (T * 1000)))%Q; [rewrite E1, E2; ring|field; lra].
Qed.

Lemma flex_fr_total : forall R ts T, (0 < T)%Q -> thousandths T ->
  Forall (fun s => is_fr s = true -> thousandths (s_value s)) ts ->
  (flex_shares is_fr (fun s => frac_new (R * trunc (s_value s * 1000)) (trunc (T * 1000))) ts == inject_Z R * tot ts / T)%Q.
Proof.
  intros R ts T HT HTh. unfold flex_shares, tot. induction 1 as [|s ts Hs Ht IH]; cbn [map qsum].
  - field. lra.
  - rewrite IH. unfold frv at 2. destruct (is_fr s).
    + rewrite fr_share_value by auto. field. lra.
    + field. lra.
Qed.

Definition gutters (n : nat) (g : Z) : Z := Z.of_nat (n - 1) * g.
Definition nonfr_sum (ts : list scalar) (sizes : list Z) : Z :=
  zsum (map (fun p => if is_fr (fst p) then 0 else snd p) (combine ts sizes)).

Lemma zsum_map_id : forall (f : Z -> Z) l, (forall z, In z l -> f z = z) -> map f l = l.
Proof. induction l; simpl; intros H; auto. f_equal; auto. Qed.

Lemma fixed_sizes_zero : forall A ts i s, nth_error ts i = Some s -> is_fr s = true ->
  nth_error (map (fixed_size A) ts) i = Some 0.
Proof. intros. rewrite nth_error_map, H. simpl. unfold fixed_size. rewrite H0. reflexivity. Qed.
Lemma fixed_sizes_zero_auto : forall A ts i s, nth_error ts i = Some s -> is_auto s = true ->
  nth_error (map (fixed_size A) ts) i = Some 0.
Proof. intros. rewrite nth_error_map, H. simpl. unfold fixed_size. rewrite H0, orb_true_r. reflexivity. Qed.

(** Tracks of fixed and fr size *)
Section FrTracks.
Variables (specs : list scalar) (n : nat) (available g : Z).
Let ts := track_specs specs n.
Let A := available - gutters n g.
Hypothesis Hn : (0 < n)%nat.
Hypothesis HA : 0 <= A.
Hypothesis Hth : Forall (fun s => is_fr s = true -> thousandths (s_value s)) ts.
Hypothesis Hfix : Forall (fun s => is_fr s = false -> is_auto s = false /\ 1 <= resolve_scalar s A) ts.
Hypothesis Htot : (0 < tot ts)%Q.
Let free := A - zsum (map (fixed_size A) ts).
Hypothesis Hshare : Forall (fun s => is_fr s = true -> (tot ts <= inject_Z free * s_value s)%Q) ts.

Let sh := fun s : scalar => frac_new (free * trunc (s_value s * 1000)) (trunc (sumq (map frv ts) * 1000)).
Let raw := share_pass is_fr sh frac_zero ts (map (fixed_size A) ts).

Lemma share_exact : forall s, is_fr s = true -> In s ts -> (value (sh s) == inject_Z free * s_value s / tot ts)%Q.
Proof.
  intros s Hs Hin. unfold sh.
  assert (ET : (sumq (map frv ts) == tot ts)%Q) by apply sumq_qsum.
  rewrite fr_share_value.
  - rewrite ET. reflexivity.
  - rewrite ET. auto.
  - rewrite Forall_forall in Hth. auto.
  - eapply thousandths_proper; [symmetry; exact ET|]. apply tot_thousandths; auto.
Qed.

Lemma raw_pos : forall z, In z raw -> 1 <= z.
Proof.
  intros z Hz. apply In_nth_error in Hz. destruct Hz as [i Hi].
  assert (Hlt : (i < length ts)%nat).
  { rewrite <- (share_pass_length is_fr sh ts frac_zero (map (fixed_size A) ts)) by apply map_length.
    apply nth_error_Some. unfold raw in Hi. congruence. }
  destruct (nth_error_ex _ ts i Hlt) as [s Hs].
  pose proof (nth_error_In _ _ Hs) as Hin.
  destruct (is_fr s) eqn:E.
  - (* recompute: floor (share + rem) >= 1 *)
    assert (G : forall l rem sizes j t y, canonical rem -> (0 <= value rem)%Q ->
       nth_error l j = Some t -> is_fr t = true -> (1 <= value (sh t))%Q ->
       nth_error (share_pass is_fr sh rem l sizes) j = Some y -> 1 <= y).
    { induction l as [|u l IH]; intros rem [|w sizes] j t y Hc Hr Hj Ht H1 Hy; try (destruct j; discriminate).
      cbn [share_pass] in Hy. destruct j as [|j].
      - simpl in Hj. injection Hj as ->. rewrite Ht in Hy. simpl in Hy. injection Hy as <-.
        rewrite frac_floor_value by apply frac_new_canonical.
        assert (X : 1 = Qfloor 1) by reflexivity. rewrite X. apply floor_le.
        rewrite frac_add_value; [lra|apply frac_new_canonical|auto].
      - simpl in Hj. destruct (is_fr u); simpl in Hy.
        + eapply (IH _ sizes); [| |exact Hj|exact Ht|exact H1|exact Hy]; [apply frac_new_canonical|].
          destruct (frac_fract_range (frac_add (sh u) rem)); [apply frac_new_canonical|auto].
        + eapply (IH _ sizes); [| |exact Hj|exact Ht|exact H1|exact Hy]; auto. }
    eapply (G ts frac_zero (map (fixed_size A) ts) i s z); auto.
    + apply canonical_zero.
    + rewrite value_zero. lra.
    + rewrite share_exact by auto. rewrite Forall_forall in Hshare. specialize (Hshare s Hin E).
      apply Qle_shift_div_l; auto. lra.
  - pose proof (share_pass_each is_fr sh ts frac_zero (map (fixed_size A) ts) i s z) as P.
    rewrite E in P. assert (nth_error (map (fixed_size A) ts) i = Some z).
    { apply P; auto; try apply canonical_zero; try (rewrite value_zero; lra). intros; apply frac_new_canonical. }
    rewrite nth_error_map, Hs in H. simpl in H. injection H as <-.
    rewrite Forall_forall in Hfix. destruct (Hfix s Hin E) as [HF1 HF2].
    unfold fixed_size. rewrite E, HF1. auto.
Qed.

Lemma distribute_fr : distribute_space specs n available g = raw.
Proof.
  unfold distribute_space. destruct (Nat.eqb_spec n 0); [lia|]. fold (gutters n g).
  rewrite Z.max_l by (fold A; lia). fold A. fold ts. rewrite sumz_zsum. fold free.
  change (fun s : scalar => if is_fr s then s_value s else 0%Q) with frv.
  destruct (Qle_bool (sumq (map frv ts)) 0) eqn:E.
  - apply Qle_bool_iff in E. rewrite sumq_qsum in E. fold (tot ts) in E. exfalso; lra.
  - cbn [negb]. fold sh. fold raw.
    apply zsum_map_id. intros z Hz. apply raw_pos in Hz. destruct (Z.ltb_spec z 1); lia.
Qed.

Lemma raw_sum : zsum raw = A.
Proof.
  unfold raw. rewrite share_pass_sum.
  - assert (ET : (sumq (map frv ts) == tot ts)%Q) by apply sumq_qsum.
    assert (HTh : thousandths (sumq (map frv ts))).
    { eapply thousandths_proper; [symmetry; exact ET|]. apply tot_thousandths; auto. }
    assert (EF : (flex_shares is_fr sh ts + value frac_zero == inject_Z free)%Q).
    { unfold sh. rewrite flex_fr_total; auto; [|rewrite ET; auto]. rewrite ET, value_zero. field. lra. }
    rewrite (Qfloor_proper _ _ EF), Qfloor_Z. unfold free. lia.
  - intros; apply frac_new_canonical.
  - apply canonical_zero.
  - rewrite value_zero; lra.
  - rewrite value_zero; lra.
  - apply map_length.
  - intros; eapply fixed_sizes_zero; eauto.
Qed.

Lemma raw_each : forall i s z, nth_error ts i = Some s -> nth_error raw i = Some z ->
  if is_fr s then (inject_Z z - 1 < inject_Z free * s_value s / tot ts)%Q /\ (inject_Z free * s_value s / tot ts < inject_Z z + 1)%Q
  else z = resolve_scalar s A.
Proof.
  intros i s z Hs Hz. pose proof (nth_error_In _ _ Hs) as Hin.
  pose proof (share_pass_each is_fr sh ts frac_zero (map (fixed_size A) ts) i s z) as P.
  destruct (is_fr s) eqn:E.
  - rewrite <- share_exact by auto. apply P; auto; try apply canonical_zero; try (rewrite value_zero; lra).
    intros; apply frac_new_canonical.
  - assert (H : nth_error (map (fixed_size A) ts) i = Some z).
    { apply P; auto; try apply canonical_zero; try (rewrite value_zero; lra). intros; apply frac_new_canonical. }
    rewrite nth_error_map, Hs in H. simpl in H. injection H as <-.
    rewrite Forall_forall in Hfix. destruct (Hfix s Hin E) as [HF1 HF2].
    unfold fixed_size. rewrite E, HF1. auto.
Qed.
End FrTracks.

(** ** The tracks of a grid *)
Lemma content_sizes_length : forall f g d n cs qs, length (content_sizes f g d n cs qs) = n.
Proof. intros. unfold content_sizes. rewrite map_length, seq_length. auto. Qed.

Lemma with_content_tracks : forall specs n a g content, length content = n ->
  exists sizes, resolve_tracks_with_content specs n a g content = tracks_from 0 g sizes /\ length sizes = n /\
    Forall (fun z => 1 <= z) sizes.
Proof.
  intros specs n a g content Hl.
  assert (D : exists sizes, resolve_tracks specs n a g = tracks_from 0 g sizes /\ length sizes = n /\ Forall (fun z => 1 <= z) sizes).
  { exists (distribute_space specs n a g). split; [reflexivity|]. split; [apply distribute_length|apply distribute_pos]. }
  unfold resolve_tracks_with_content. destruct specs; auto. destruct content as [|x content]; auto.
  eexists. split; [reflexivity|]. split.
  - rewrite map_length. destruct (_ <=? _); [auto|rewrite map_length; auto].
  - apply Forall_map. apply Forall_forall. intros; lia.
Qed.

Lemma grid_columns_tracks : forall g children a, 
  exists sizes, grid_columns g children a = tracks_from 0 (gutter_h g a) sizes /\
    length sizes = snd (grid_dims g (length children) a) /\ Forall (fun z => 1 <= z) sizes.
Proof.
  intros. unfold grid_columns. destruct (grid_dims g (length children) a) as [rows cols]. simpl.
  destruct (_ && _).
  - apply with_content_tracks. apply content_sizes_length.
  - exists (distribute_space (g_col_specs g) cols (rg_w a) (gutter_h g a)).
    split; [reflexivity|]. split; [apply distribute_length|apply distribute_pos].
Qed.
Lemma grid_rows_tracks : forall g children a, 
  exists sizes, grid_rows g children a = tracks_from 0 (gutter_v g a) sizes /\
    length sizes = fst (grid_dims g (length children) a) /\ Forall (fun z => 1 <= z) sizes.
Proof.
  intros. unfold grid_rows. destruct (grid_dims g (length children) a) as [rows cols]. simpl.
  destruct (_ && _).
  - apply with_content_tracks. apply content_sizes_length.
  - exists (distribute_space (g_row_specs g) rows (rg_h a) (gutter_v g a)).
    split; [reflexivity|]. split; [apply distribute_length|apply distribute_pos].
Qed.

(** ** A child stays in its cell *)
Definition fits_row (c : child) : Prop :=
  match l_height (ch_style c) with
  | None => True
  | Some (Scalar q u) => match u with Fraction_ => True | Cells | Auto => False | _ => (0 <= q <= 100)%Q end
  end.

Lemma round_le : forall q z, (0 <= q)%Q -> (q <= inject_Z z)%Q -> round q <= z.
Proof.
  intros q z H0 H. unfold round. apply Qle_bool_iff in H0. rewrite H0. apply Qle_bool_iff in H0.
  assert (X : Qfloor (q + (1 # 2)) < z + 1); [|lia].
  rewrite Zlt_Qlt. rewrite inject_Z_plus. change (inject_Z 1) with 1%Q.
  pose proof (Qfloor_le (q + (1 # 2))). lra.
Qed.

Lemma pct_le : forall q n, (0 <= q <= 100)%Q -> 0 <= n -> (0 <= pct q n)%Q /\ (pct q n <= inject_Z n)%Q.
Proof.
  intros q n [H0 H1] Hn. split; [apply pct_nonneg; auto|]. unfold pct.
  assert (Hq : (0 <= inject_Z n)%Q) by (rewrite <- (Zle_Qle 0); auto).
  assert (X : (q / 100 <= 1)%Q) by (apply Qle_shift_div_r; lra).
  setoid_replace (inject_Z n) with (1 * inject_Z n)%Q at 2 by ring.
  apply Qmult_le_compat_r; auto.
Qed.

Lemma fits_height : forall c h, fits_row c -> 0 <= h -> resolve_height_with_intrinsic (ch_style c) (ch_dh c) h <= h.
Proof.
  intros c h Hf Hh. unfold fits_row in Hf. unfold resolve_height_with_intrinsic.
  destruct (l_height (ch_style c)) as [[q u]|]; [|lia]. cbn [s_unit s_value].
  destruct u; try contradiction; try lia;
  (destruct (pct_le q h Hf Hh) as [A B]; apply round_le; auto).
Qed.

Lemma in_cell_inside : forall c cell x y, fits_row c -> 0 <= rg_h cell ->
  (0 <= l_ml (ch_style c))%Q -> (0 <= l_mr (ch_style c))%Q -> (0 <= l_mt (ch_style c))%Q -> (0 <= l_mb (ch_style c))%Q ->
  point_in (in_cell c cell) x y -> point_in cell x y.
Proof.
  intros c cell x y Hf Hh M1 M2 M3 M4 [P1 P2].
  apply trunc_nonneg in M1, M2, M3, M4. pose proof (fits_height c (rg_h cell) Hf Hh) as HH.
  unfold in_cell in P1, P2. cbn [rg_x rg_y rg_w rg_h] in P1, P2.
  set (w0 := resolve_width_with_intrinsic _ _ _) in *.
  assert (HM : match l_height (ch_style c) with
     | Some x0 => match s_unit x0 with
        | Auto => ch_ih c ((if rg_w cell <? w0 then rg_w cell else w0) mod 65536)
        | _ => resolve_height_with_intrinsic (ch_style c) (ch_dh c) (rg_h cell) end
     | None => resolve_height_with_intrinsic (ch_style c) (ch_dh c) (rg_h cell) end
     = resolve_height_with_intrinsic (ch_style c) (ch_dh c) (rg_h cell)).
  { unfold fits_row in Hf. destruct (l_height (ch_style c)) as [[q u]|]; auto. destruct u; auto. contradiction. }
  rewrite HM in P2. unfold point_in.
  destruct (Z.ltb_spec (rg_w cell) w0); split; lia.
Qed.

Lemma nth_combine : forall (A B : Type) (l : list A) (m : list B) i x y,
  nth_error (combine l m) i = Some (x, y) -> nth_error l i = Some x /\ nth_error m i = Some y.
Proof.
  induction l as [|a l IH]; intros [|b m] [|i] x y H; simpl in *; try discriminate.
  - injection H as -> ->. auto.
  - apply IH; auto.
Qed.

Lemma grid_arrange_nth : forall g children a i p,
  nth_error (grid_arrange g children a) i = Some p ->
  exists c q, nth_error children i = Some c /\
    nth_error (grid_cells (occ_new (fst (grid_dims g (length children) a)) (snd (grid_dims g (length children) a))) 0 0 (spans_of children)) i = Some q /\
    p = Placement (ch_index c) (in_cell c (child_region q (grid_columns g children a) (grid_rows g children a) a (gutter_h g a) (gutter_v g a))).
Proof.
  intros g children a i p H. unfold grid_arrange in H.
  destruct (grid_dims g (length children) a) as [rows cols].
  rewrite nth_error_map in H. destruct (nth_error (combine _ _) i) as [[c q]|] eqn:E; [|discriminate].
  apply nth_combine in E. destruct E as [E1 E2]. injection H as <-. exists c, q. auto.
Qed.

Lemma cell_height_nonneg : forall q columns sizes a gh gv, 0 <= gv -> Forall (fun z => 1 <= z) sizes ->
  (1 <= rc_rs q)%nat -> (rc_row q + rc_rs q <= length sizes)%nat ->
  0 <= rg_h (child_region q columns (tracks_from 0 gv sizes) a gh gv).
Proof.
  intros q columns sizes a gh gv Hg Hs H1 H2. unfold child_region. cbn [rg_h]. rewrite track_span_eq by lia.
  unfold extent_of.
  assert (0 <= zsum (firstn (rc_rs q) (skipn (rc_row q) sizes))).
  { pose proof (start_mono sizes 0 (rc_row q) (rc_row q + rc_rs q) ltac:(lia)) as M. unfold start_of in M.
    rewrite firstn_add, zsum_app in M. assert (Forall (fun z => 0 <= z) sizes) by (eapply Forall_impl; [|exact Hs]; simpl; intros; lia).
    specialize (M H ltac:(lia)). lia. }
  nia.
Qed.

Lemma grid_children_apart : forall g children a i j p p',
  0 <= gutter_h g a -> 0 <= gutter_v g a -> Forall nonneg_child children -> Forall fits_row children ->
  (i < j)%nat -> nth_error (grid_arrange g children a) i = Some p -> nth_error (grid_arrange g children a) j = Some p' ->
  apart (pl_region p) (pl_region p').
Proof.
  intros g children a i j p p' Hgh Hgv Hn Hf Hij Hp Hp'.
  destruct (grid_arrange_nth _ _ _ _ _ Hp) as (c & q & Hc & Hq & ->).
  destruct (grid_arrange_nth _ _ _ _ _ Hp') as (c' & q' & Hc' & Hq' & ->).
  destruct (grid_columns_tracks g children a) as (cs & Ec & Lc & Pc).
  destruct (grid_rows_tracks g children a) as (rs & Er & Lr & Pr).
  destruct (grid_dims g (length children) a) as [rows cols]. simpl in Lc, Lr, Hq, Hq'.
  pose proof (grid_cells_spec _ _ _ _ _ _ Hq) as (G1 & _). pose proof (grid_cells_spec _ _ _ _ _ _ Hq') as (G2 & _).
  destruct (grid_cells_pairs _ _ _ _ _ _ _ _ Hij Hq Hq') as [Hd _]. simpl in G1, G2.
  rewrite Ec, Er. rewrite <- Lc, <- Lr in *.
  assert (Pc0 : Forall (fun z => 0 <= z) cs) by (eapply Forall_impl; [|exact Pc]; simpl; intros; lia).
  assert (Pr0 : Forall (fun z => 0 <= z) rs) by (eapply Forall_impl; [|exact Pr]; simpl; intros; lia).
  intros x y [P1 P2]. cbn [pl_region] in P1, P2.
  rewrite Forall_forall in Hn, Hf.
  pose proof (Hn _ (nth_error_In _ _ Hc)) as N1. pose proof (Hn _ (nth_error_In _ _ Hc')) as N2.
  unfold nonneg_child in N1, N2.
  destruct G1 as (g1 & g2 & g3 & g4) eqn:EG1. destruct G2 as (k1 & k2 & k3 & k4) eqn:EG2.
  apply in_cell_inside in P1; try tauto; [|apply Hf; eapply nth_error_In; eauto|apply cell_height_nonneg; auto].
  apply in_cell_inside in P2; try tauto; [|apply Hf; eapply nth_error_In; eauto|apply cell_height_nonneg; auto].
  eapply (cells_apart cs rs a _ _ q q' Hgh Hgv Pc0 Pr0); eauto.
Qed.
