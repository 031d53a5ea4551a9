(** Proofs about sizes. *)
From Coq Require Import ZArith QArith Qround Qminmax List Bool Lia Lqa.
From Verif Require Import Fraction_Model Fraction_Spec Fraction_Proofs Canvas_Model Layout_Model Layout_Spec Layout_Proofs Column_Proofs Sizes_Spec.
Import ListNotations.
Open Scope Z_scope.

Lemma trunc_floor : forall q, (0 <= q)%Q -> trunc q = Qfloor q.
Proof. intros [n d] H. unfold trunc, Qfloor, Qle in *. cbn in *. apply Z.quot_div_nonneg; lia. Qed.
Lemma trunc_proper : forall p q, (0 <= p)%Q -> (p == q)%Q -> trunc p = Qfloor q.
Proof. intros p q H E. rewrite trunc_floor by exact H. apply Qfloor_proper. exact E. Qed.
Lemma round_nearest : forall p q, (0 <= p)%Q -> (p == q)%Q -> round p = nearest q.
Proof. intros p q H E. unfold round, nearest. assert (B : Qle_bool 0 p = true) by (apply Qle_bool_iff; exact H). rewrite B. apply Qfloor_proper. rewrite E. reflexivity. Qed.
Lemma pct_eq : forall q n, (pct q n == q * inject_Z n / 100)%Q.
Proof. intros. unfold pct. field. Qed.
Lemma length_nonneg : forall pb a v s, (0 <= s_value s)%Q -> 0 <= pb -> nonneg_region a -> nonneg_viewport v -> (0 <= length_ pb a v s)%Q.
Proof.
  intros pb a v s H P [A1 A2] [V1 V2]. unfold length_. destruct (s_unit s); cbn [hundred]; auto; rewrite <- pct_eq; apply pct_nonneg; auto.
Qed.
Lemma constraint_z_spec : forall m a v, nonneg_scalar (Some m) -> nonneg_region a -> nonneg_viewport v -> constraint_z m a v = Qfloor (length_ (rg_w a) a v m).
Proof.
  intros m a v H [A1 A2] [V1 V2]. cbn in H. unfold constraint_z, length_. destruct (s_unit m); cbn [hundred]; try (apply trunc_floor; exact H); apply trunc_proper; try (apply pct_nonneg; auto); apply pct_eq.
Qed.
Lemma constraint_h_spec : forall m a v, nonneg_scalar (Some m) -> nonneg_region a -> nonneg_viewport v -> constraint_h m a v = Qfloor (length_ (rg_h a) a v m).
Proof.
  intros m a v H [A1 A2] [V1 V2]. cbn in H. unfold constraint_h, constraint_z, length_. destruct (s_unit m); cbn [hundred]; try (apply trunc_floor; exact H); apply trunc_proper; try (apply pct_nonneg; auto); apply pct_eq.
Qed.
Lemma clamp_width_spec : forall c a v w, nonneg_child c -> nonneg_region a -> nonneg_viewport v ->
  clamp_width (ch_style c) a v w = limited (limit (rg_w a) a v (l_min_width (ch_style c))) (limit (rg_w a) a v (l_max_width (ch_style c))) w.
Proof.
  intros c a v w C A V. unfold nonneg_child in C. cbv zeta in C. unfold clamp_width, limited, limit. destruct (l_max_width (ch_style c)) as [m|]; destruct (l_min_width (ch_style c)) as [n|]; cbn [option_map]; rewrite ?constraint_z_spec by (auto; tauto); reflexivity.
Qed.
Lemma clamp_height_spec : forall c a v w, nonneg_child c -> nonneg_region a -> nonneg_viewport v ->
  clamp_height (ch_style c) a v w = limited (limit (rg_h a) a v (l_min_height (ch_style c))) (limit (rg_h a) a v (l_max_height (ch_style c))) w.
Proof.
  intros c a v w C A V. unfold nonneg_child in C. cbv zeta in C. unfold clamp_height, limited, limit. destruct (l_max_height (ch_style c)) as [m|]; destruct (l_min_height (ch_style c)) as [n|]; cbn [option_map]; rewrite ?constraint_h_spec by (auto; tauto); reflexivity.
Qed.
Lemma extra_width_spec : forall c w, nonneg_child c -> apply_box_sizing_width w (ch_style c) = w + extra_width c.
Proof.
  intros c w C. unfold nonneg_child in C. cbv zeta in C. unfold apply_box_sizing_width, extra_width, horizontal_chrome. destruct (l_content_box (ch_style c)); [|lia]. rewrite !trunc_floor by tauto. reflexivity.
Qed.
Lemma extra_height_spec : forall c w, nonneg_child c -> apply_box_sizing_height w (ch_style c) = w + extra_height c.
Proof.
  intros c w C. unfold nonneg_child in C. cbv zeta in C. unfold apply_box_sizing_height, extra_height, vertical_chrome. destruct (l_content_box (ch_style c)); [|lia]. rewrite !trunc_floor by tauto. reflexivity.
Qed.

(** *** Rows: across *)
Lemma row_place_nth : forall l first prev x a v i p, nth_error (row_place first prev x a v l) i = Some p ->
  exists c w, nth_error l i = Some (c, w) /\ p_top p = rg_y a + trunc (l_mt (ch_style c)) /\ p_width p = clamp_width (ch_style c) a v w /\ p_height p = row_height c a v (p_width p).
Proof.
  induction l as [|[c w] l IH]; intros first prev x a v i p H; [destruct i; discriminate|]. destruct i as [|i]; cbn [row_place nth_error] in H.
  - apply some_eq in H. subst p. exists c, w. repeat split.
  - apply IH in H. exact H.
Qed.
Lemma combine_nth_error : forall A B (l : list A) (m : list B) i x y, nth_error (combine l m) i = Some (x, y) -> nth_error l i = Some x /\ nth_error m i = Some y.
Proof. induction l as [|a l IH]; intros [|b m] [|i] x y H; cbn in *; try discriminate; [injection H as -> ->; auto|eauto]. Qed.
Lemma row_nth : forall cs a v i p c, nth_error (horizontal_arrange cs a v) i = Some p -> nth_error cs i = Some c ->
  exists w, nth_error (row_widths cs a v) i = Some w /\ p_top p = rg_y a + trunc (l_mt (ch_style c)) /\ p_width p = clamp_width (ch_style c) a v w /\ p_height p = row_height c a v (p_width p).
Proof.
  intros cs a v i p c P C. unfold horizontal_arrange in P. apply row_place_nth in P. destruct P as (c' & w & N & P). apply combine_nth_error in N. destruct N as [N1 N2]. assert (c' = c) by congruence. subst c'. exists w. auto.
Qed.
Lemma row_height_spec : forall c a v w, nonneg_child c -> nonneg_region a -> nonneg_viewport v -> across_unit (l_height (ch_style c)) ->
  row_height c a v w = let h := limited (limit (rg_h a) a v (l_min_height (ch_style c))) (limit (rg_h a) a v (l_max_height (ch_style c))) (row_height_asked c a (as_u16 w)) in
    if auto_height c then h else Z.max 0 (h - m_top c - m_bottom c).
Proof.
  intros c a v w C A V U. pose proof C as C'. unfold nonneg_child in C'. cbv zeta in C'. unfold row_height. cbv zeta. rewrite clamp_height_spec by auto. unfold auto_height, row_height_asked, m_top, m_bottom. rewrite !trunc_floor with (q := l_mt (ch_style c)) by tauto. rewrite !trunc_floor with (q := l_mb (ch_style c)) by tauto.
  destruct C' as (_ & C' & _). destruct (l_height (ch_style c)) as [[q u]|]; cbn [s_unit s_value] in *; [destruct u; cbn in U; try contradiction|]; rewrite ?extra_height_spec by auto; cbn in C'.
  - rewrite trunc_floor by auto. apply Z.max_comm.
  - assert (T : trunc (pct q (rg_h a)) = Qfloor (q * inject_Z (rg_h a) / 100)) by (apply trunc_proper; [apply pct_nonneg; auto; destruct A; auto|apply pct_eq]). rewrite T. apply Z.max_comm.
  - apply Z.max_comm.
  - reflexivity.
  - apply Z.max_comm.
Qed.

(** *** Rows: along *)
Lemma unlimited_hwidth : forall a v c, hwidth_of a v (unlimited c) = hwidth_of a v c.
Proof. intros. reflexivity. Qed.
Lemma unlimited_widths : forall cs a v, row_widths (map unlimited cs) a v = row_widths cs a v.
Proof.
  intros. unfold row_widths. rewrite map_map. assert (E : map (fun x => hwidth_of a v (unlimited x)) cs = map (hwidth_of a v) cs) by (apply map_ext; intros; apply unlimited_hwidth). rewrite E.
  assert (M : forall l f p, margin_pass f p (map unlimited l) = margin_pass f p l) by (induction l as [|c l IH]; intros; cbn; [reflexivity|]; rewrite IH; reflexivity). rewrite M. reflexivity.
Qed.
Lemma unlimited_ok : forall cs, Forall no_width_limits (map unlimited cs).
Proof. intros cs. apply Forall_map, Forall_forall. intros c _. split; reflexivity. Qed.
Lemma value_new : forall n d, 0 < d -> (value (frac_new n d) == inject_Z n / inject_Z d)%Q.
Proof. intros n d D. rewrite frac_new_value by lia. unfold ratio. reflexivity. Qed.
Lemma value_of_int : forall n, (value (frac_of_int n) == inject_Z n)%Q.
Proof. intros. unfold frac_of_int. rewrite frac_new_value. unfold ratio. change (inject_Z 1) with 1%Q. field. Qed.
Lemma share_spec : forall c a v, nonneg_child c -> nonneg_region a -> nonneg_viewport v -> flexible c = false -> (fixed_share (hwidth_of a v c) == row_width c a v)%Q.
Proof.
  intros c a v C A V F. pose proof C as C'. unfold nonneg_child in C'. cbv zeta in C'. destruct C' as (W & _).
  assert (P : forall q n, (0 <= q)%Q -> (fixed_share (HFixed (box_fraction (percent_to_fraction q n) (ch_style c))) == thousandths q * inject_Z n / 100 + inject_Z (extra_width c))%Q).
  { intros q n Q. cbn [fixed_share]. unfold box_fraction, percent_to_fraction. rewrite (round_nearest (q * 1000) (q * 1000)) by (try reflexivity; lra). set (k := nearest (q * 1000)).
    assert (E : (value (frac_new (n * k) (100 * 1000)) == thousandths q * inject_Z n / 100)%Q). { rewrite value_new by lia. unfold thousandths. fold k. rewrite inject_Z_mult. change (inject_Z (100 * 1000)) with 100000%Q. field. }
    unfold extra_width. destruct (l_content_box (ch_style c)) eqn:CB.
    - rewrite frac_add_value; [|apply frac_new_canonical|apply frac_new_canonical]. rewrite E. apply Qplus_comp; [reflexivity|]. unfold horizontal_chrome. unfold nonneg_child in C. cbv zeta in C. rewrite !trunc_floor by tauto. apply value_of_int.
    - rewrite E. change (inject_Z 0) with 0%Q. ring. }
  unfold row_width, flexible, fr_weight, hwidth_of, auto_width in *. destruct (l_width (ch_style c)) as [[q u]|]; cbn [s_unit s_value] in *.
  - cbn in W. unfold length_. cbn [s_unit s_value]. destruct u; cbn [hundred]; try (apply P; exact W); try discriminate F.
    + cbn [fixed_share]. rewrite value_of_int. rewrite extra_width_spec, trunc_floor by auto. reflexivity.
    + unfold u16_max. destruct (ch_dw c =? 65535); [discriminate|]. cbn. apply value_of_int.
  - unfold u16_max. destruct (ch_dw c =? 65535); [discriminate|]. cbn. apply value_of_int.
Qed.
Lemma fixed_pass_firstn : forall n l rem, firstn n (fixed_pass rem l) = fixed_pass rem (firstn n l).
Proof. induction n as [|n IH]; intros [|[s|k] l] rem; cbn; try reflexivity; rewrite IH; reflexivity. Qed.
Lemma canonical_all : forall cs a v, Forall (fun h => match h with HFixed s => canonical s | HFr _ => True end) (map (hwidth_of a v) cs).
Proof.
  intros cs a v. apply Forall_map. apply Forall_forall. intros c _. unfold hwidth_of, auto_width, box_fraction.
  destruct (l_width (ch_style c)) as [[q u]|]; cbn [s_unit s_value]; [destruct u|]; try destruct (l_content_box _); try destruct (ch_dw c =? u16_max); auto; apply frac_new_canonical.
Qed.
Lemma firstn_sum_merge : forall n l rem ws, length ws = length l ->
  zsum (map (fun x : hwidth * Z => if hbool (fst x) then 0 else snd x) (firstn n (combine l (merge (fixed_pass rem l) ws)))) = zsum (map oz (firstn n (fixed_pass rem l))).
Proof.
  induction n as [|n IH]; intros [|h l] rem [|w ws] L; cbn in L; try discriminate; try reflexivity. destruct h as [s|k]; cbn [fixed_pass merge map combine firstn zsum fst snd hbool oz].
  - f_equal. apply IH. lia.
  - f_equal. apply IH. lia.
Qed.
Lemma row_prefix : forall cs a v n, Forall nonneg_child cs -> nonneg_region a -> nonneg_viewport v -> Forall no_width_limits cs ->
  width_where (fun c => negb (flexible c)) (firstn n cs) (firstn n (horizontal_arrange cs a v)) = Qfloor (qsum (map (fun c => if flexible c then 0%Q else row_width c a v) (firstn n cs))).
Proof.
  intros cs a v n C A V L. rewrite width_where_widths. rewrite <- firstn_map, horizontal_widths by auto. rewrite <- combine_firstn.
  assert (E : map (fun x => if negb (flexible (fst x)) then snd x else 0) (firstn n (combine cs (row_widths cs a v))) = map (fun x => if hbool (fst x) then 0 else snd x) (firstn n (combine (map (hwidth_of a v) cs) (row_widths cs a v)))).
  { rewrite <- !firstn_map. f_equal. rewrite (combine_map_flex a v cs _ (fun b w => if negb b then w else 0)). apply map_ext. intros [h w]. cbn. destruct (hbool h); reflexivity. }
  rewrite E, row_widths_merge, firstn_sum_merge by apply fr_pass_length. rewrite fixed_pass_firstn, firstn_map.
  rewrite fixed_pass_total; [|apply canonical_zero|rewrite value_zero; lra|rewrite value_zero; lra|apply canonical_all].
  apply Qfloor_proper. rewrite value_zero, Qplus_0_r. rewrite map_map. assert (CF : Forall nonneg_child (firstn n cs)) by (apply Forall_forall; intros c I; rewrite Forall_forall in C; apply C; rewrite <- (firstn_skipn n cs); apply in_or_app; left; exact I).
  clear - CF A V. induction CF as [|c l H1 H2 IH]; cbn [map qsum]; [reflexivity|]. rewrite IH. apply Qplus_comp; [|reflexivity]. destruct (flexible c) eqn:F; [|apply share_spec; auto].
  pose proof (hwidth_flex a v c) as HF. rewrite F in HF. destruct (hwidth_of a v c); [discriminate|reflexivity].
Qed.

(** *** Columns *)
Lemma column_width_spec : forall c a v, nonneg_child c -> nonneg_region a -> nonneg_viewport v -> across_unit (l_width (ch_style c)) -> resolve_child_width c a v = column_width_given c a v.
Proof.
  intros c a v C A V U. unfold resolve_child_width, column_width_given. rewrite clamp_width_spec by auto. f_equal. unfold column_width, resolve_width_with_intrinsic, reduce_width, ml, mr. pose proof C as C'. unfold nonneg_child in C'. cbv zeta in C'. rewrite (trunc_floor (l_ml (ch_style c))), (trunc_floor (l_mr (ch_style c))) by tauto.
  destruct C' as (W & _). destruct (l_width (ch_style c)) as [[q u]|]; cbn [s_unit s_value] in *; [destruct u; cbn in U; try contradiction; cbn in W|].
  - apply trunc_floor. exact W.
  - rewrite (round_nearest (pct q (rg_w a)) (q * inject_Z (rg_w a) / 100)) by (try apply pct_eq; apply pct_nonneg; auto; destruct A; auto). lia.
  - lia.
  - reflexivity.
  - lia.
Qed.
Lemma col_place_nth : forall l u f prev y a v i p c, nth_error (col_place u f prev y a v l) i = Some p -> nth_error l i = Some c -> p_left p = rg_x a + trunc (l_ml (ch_style c)) /\ p_width p = resolve_child_width c a v.
Proof.
  induction l as [|c0 l IH]; intros u f prev y a v i p c P C; [destruct i; discriminate|]. destruct i as [|i]; cbn [col_place nth_error] in P, C; [apply some_eq in P; apply some_eq in C; subst; split; reflexivity|eauto].
Qed.
Lemma raw_height_spec : forall u c a v, nonneg_child c -> nonneg_region a -> nonneg_viewport v -> across_unit (l_width (ch_style c)) ->
  (raw_height u c a v == match height_fr c with Some n => n * u | None => column_height_asked c a v (as_u16 (column_width_given c a v)) end)%Q.
Proof.
  intros u c a v C A V U. unfold raw_height, height_fr, column_height_asked, intrinsic_height, is_fill, u16_max. rewrite column_width_spec by auto. pose proof C as C'. unfold nonneg_child in C'. cbv zeta in C'. destruct C' as (_ & H & _).
  destruct (l_height (ch_style c)) as [[q un]|]; cbn [s_unit s_value] in *; [cbn in H; destruct un; unfold length_; cbn [s_unit s_value hundred]; try apply pct_eq; try reflexivity|].
  - unfold qz. rewrite extra_height_spec, trunc_floor by auto. reflexivity.
  - destruct (ch_dh c =? 65535); [ring|reflexivity].
Qed.
Lemma constraint_q_spec : forall m a v, (constraint_q m a v == length_ (rg_h a) a v m)%Q.
Proof. intros m a v. unfold constraint_q, length_. destruct (s_unit m); cbn [hundred]; try reflexivity; apply pct_eq. Qed.
Lemma qmin_if : forall a b a' b', (a == a')%Q -> (b == b')%Q -> (Qmin a b == if Qle_bool a' b' then a' else b')%Q.
Proof.
  intros a b a' b' A B. destruct (Qle_bool a' b') eqn:E.
  - apply Qle_bool_iff in E. rewrite A, B. apply Q.min_l. exact E.
  - rewrite A, B. apply Q.min_r. assert (~ (a' <= b')%Q) by (intros X; apply Qle_bool_iff in X; congruence). lra.
Qed.
Lemma qmax_if : forall a b a' b', (a == a')%Q -> (b == b')%Q -> (Qmax a b == if Qle_bool b' a' then a' else b')%Q.
Proof.
  intros a b a' b' A B. destruct (Qle_bool b' a') eqn:E.
  - apply Qle_bool_iff in E. rewrite A, B. apply Q.max_l. exact E.
  - rewrite A, B. apply Q.max_r. assert (~ (b' <= a')%Q) by (intros X; apply Qle_bool_iff in X; congruence). lra.
Qed.
Lemma box_height_spec : forall u c a v, nonneg_child c -> nonneg_region a -> nonneg_viewport v -> across_unit (l_width (ch_style c)) ->
  (box_height u c a v == column_height u c a v (as_u16 (column_width_given c a v)))%Q.
Proof.
  intros u c a v C A V U. unfold box_height, column_height. pose proof (raw_height_spec u c a v C A V U) as R. set (h := raw_height u c a v) in *. set (k := match height_fr c with Some n => (n * u)%Q | None => column_height_asked c a v (as_u16 (column_width_given c a v)) end) in *. clearbody h k. cbv zeta.
  set (h1 := match l_max_height (ch_style c) with Some m => Qmin h (constraint_q m a v) | None => h end). set (h2 := match l_min_height (ch_style c) with Some m => Qmax h1 (constraint_q m a v) | None => h1 end).
  assert (E : (h2 == qlimited (option_map (length_ (rg_h a) a v) (l_min_height (ch_style c))) (option_map (length_ (rg_h a) a v) (l_max_height (ch_style c))) k)%Q).
  { unfold h2, h1, qlimited. destruct (l_max_height (ch_style c)) as [m|]; destruct (l_min_height (ch_style c)) as [n|]; cbn [option_map].
    - apply qmax_if; [apply qmin_if; [exact R|apply constraint_q_spec]|apply constraint_q_spec].
    - apply qmin_if; [exact R|apply constraint_q_spec].
    - apply qmax_if; [exact R|apply constraint_q_spec].
    - exact R. }
  assert (I : reduce_height c = includes_margins c) by reflexivity. rewrite I. destruct (includes_margins c); [|exact E]. apply qmax_if; [rewrite E; reflexivity|reflexivity].
Qed.
Lemma column_height_nonneg : forall u c a v, nonneg_child c -> nonneg_region a -> nonneg_viewport v -> across_unit (l_width (ch_style c)) -> (0 <= u)%Q -> (0 <= column_height u c a v (as_u16 (column_width_given c a v)))%Q.
Proof. intros. rewrite <- box_height_spec by auto. apply box_height_nonneg; auto. Qed.
Lemma exact_positions : forall l u (first : bool) prev y y0 a v, Forall nonneg_child l -> nonneg_region a -> nonneg_viewport v -> Forall (fun c => across_unit (l_width (ch_style c))) l -> (0 <= u)%Q ->
  (match l with [] => True | c :: _ => (y0 == y + (if first then l_mt (ch_style c) else Qmax (l_mt (ch_style c) - prev) 0))%Q end) ->
  map (fun p => (p_top p, p_bottom p)) (col_place u first prev y a v l) = map (fun tb => (Qfloor (fst tb), Qfloor (snd tb))) (exact_column u a v y0 l).
Proof.
  induction l as [|c l IH]; intros u first prev y y0 a v C A V U P Y; [reflexivity|]. inversion C; subst. inversion U; subst. cbn [col_place exact_column map]. f_equal.
  - unfold p_top, p_bottom. cbn [pl_region rg_y rg_h fst snd]. set (yy := (y + _)%Q) in *. pose proof (box_height_spec u c a v) as B. pose proof (column_height_nonneg u c a v) as N. set (bh := box_height u c a v) in *. set (ch := column_height u c a v _) in *.
    assert (B' : (bh == ch)%Q) by auto. assert (N' : (0 <= ch)%Q) by auto. assert (E1 : Qfloor yy = Qfloor y0) by (apply Qfloor_proper; rewrite Y; reflexivity). assert (E2 : Qfloor (yy + bh) = Qfloor (y0 + ch)) by (apply Qfloor_proper; rewrite Y, B'; reflexivity).
    rewrite E1, E2. f_equal. assert (Qfloor y0 <= Qfloor (y0 + ch)) by (apply Qfloor_resp_le; lra). lia.
  - apply IH; auto. destruct l as [|d l]; auto. rewrite box_height_spec by auto. rewrite collapsed_max. set (ch := column_height u c a v _). rewrite Y. set (z := (if first then l_mt (ch_style c) else Qmax (l_mt (ch_style c) - prev) 0)%Q).
    destruct (Qmax_case' (l_mb (ch_style c)) (l_mt (ch_style d))) as [[X1 X2]|[X1 X2]]; destruct (Qmax_case' (l_mt (ch_style d) - l_mb (ch_style c)) 0) as [[Z1 Z2]|[Z1 Z2]]; rewrite X1, Z1; lra.
Qed.
Lemma v_margins_gaps : forall cs prev, (v_margins false prev cs == match cs with [] => 0 | c :: _ => Qmax prev (l_mt (ch_style c)) - prev end + col_gaps_after cs)%Q.
Proof.
  induction cs as [|c cs IH]; intros prev; cbn [v_margins col_gaps_after]; [ring|]. rewrite IH. destruct cs as [|d cs].
  - destruct (Qmax_case' (l_mt (ch_style c) - prev) 0) as [[X1 X2]|[X1 X2]]; destruct (Qmax_case' prev (l_mt (ch_style c))) as [[Z1 Z2]|[Z1 Z2]]; rewrite X1, Z1; cbn [col_gaps_after]; lra.
  - rewrite collapsed_max. destruct (Qmax_case' (l_mt (ch_style c) - prev) 0) as [[X1 X2]|[X1 X2]]; destruct (Qmax_case' prev (l_mt (ch_style c))) as [[Z1 Z2]|[Z1 Z2]]; rewrite X1, Z1; lra.
Qed.
Lemma v_margins_col : forall cs, (v_margins true 0 cs == col_gaps cs)%Q.
Proof.
  intros [|c cs]; unfold col_gaps; cbn [v_margins col_gaps_after]; [ring|]. rewrite v_margins_gaps. destruct cs as [|d cs]; [ring|]. rewrite collapsed_max. ring.
Qed.
Lemma sumq_qsum : forall l, (sumq l == qsum l)%Q.
Proof.
  assert (G : forall l a, (fold_left Qplus l a == a + qsum l)%Q) by (induction l as [|x l IH]; intros a; cbn; [ring|]; rewrite IH; ring). intros l. unfold sumq. rewrite G. ring.
Qed.
Lemma qsum_ext : forall A (f g : A -> Q) l, (forall x, In x l -> (f x == g x)%Q) -> (qsum (map f l) == qsum (map g l))%Q.
Proof. intros A f g. induction l as [|x l IH]; intros H; cbn; [reflexivity|]. rewrite (H x (or_introl eq_refl)), IH by (intros; apply H; right; assumption). reflexivity. Qed.
Lemma fr_unit_spec : forall cs a v, Forall nonneg_child cs -> nonneg_region a -> nonneg_viewport v -> Forall (fun c => across_unit (l_width (ch_style c))) cs -> rg_h a = vp_h v -> fr_size_is cs a v (fraction_unit cs a v).
Proof.
  intros cs a v C A V U HV. unfold fr_size_is. cbv zeta. set (lo := (inject_Z (rg_h a) - _ - _)%Q). set (frs := qsum (map fr_of cs)).
  assert (F1 : (sumq (map fr_height cs) == frs)%Q). { rewrite sumq_qsum. apply qsum_ext. intros c _. unfold fr_height, fr_of, height_fr, is_fill, u16_max. destruct (l_height (ch_style c)) as [[q u]|]; cbn; [destruct u; reflexivity|]. destruct (ch_dh c =? 65535); reflexivity. }
  assert (F2 : (qz (vp_h v) - sumq (map (fun c => fixed_height c a v) cs) - v_margins true 0 cs == lo)%Q).
  { unfold lo. rewrite v_margins_col, sumq_qsum. rewrite HV. unfold qz. apply Qplus_comp; [|reflexivity]. apply Qplus_comp; [reflexivity|]. apply Qopp_comp. apply qsum_ext. intros c I. rewrite Forall_forall in C, U. specialize (C c I). specialize (U c I). pose proof C as C'. unfold nonneg_child in C'. cbv zeta in C'. destruct C' as (_ & H & _).
    unfold fixed_height, height_fr, column_height_asked, intrinsic_height, is_fill, u16_max. rewrite column_width_spec by auto. destruct (l_height (ch_style c)) as [[q un]|]; cbn [s_unit s_value] in *; [cbn in H; destruct un; unfold length_; cbn [s_unit s_value hundred]; rewrite ?HV; try apply pct_eq; try reflexivity|].
    - unfold qz. rewrite extra_height_spec, trunc_floor by auto. reflexivity.
    - destruct (ch_dh c =? 65535); reflexivity. }
  unfold fraction_unit. set (total := sumq _) in *. set (rem := (qz (vp_h v) - _ - _)%Q) in *. split.
  - intros L T. assert (R : (Qmax rem 0 == lo)%Q) by (rewrite F2; apply Q.max_l; lra). assert (B1 : Qle_bool total 0 = false). { destruct (Qle_bool total 0) eqn:E; auto. apply Qle_bool_iff in E. rewrite F1 in E. lra. }
    assert (B2 : Qle_bool (Qmax rem 0) 0 = false). { destruct (Qle_bool (Qmax rem 0) 0) eqn:E; auto. apply Qle_bool_iff in E. rewrite R in E. lra. }
    rewrite B1, B2. cbn [negb andb]. rewrite R, F1. field. lra.
  - intros L. assert (R : (Qmax rem 0 == 0)%Q) by (rewrite F2; apply Q.max_r; lra). assert (B2 : Qle_bool (Qmax rem 0) 0 = true) by (apply Qle_bool_iff; rewrite R; lra). rewrite B2. rewrite andb_false_r. reflexivity.
Qed.
