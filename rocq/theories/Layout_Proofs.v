From Coq Require Import ZArith QArith Qround Qminmax List Bool Lia Lqa.
From Verif Require Import Fraction_Model Fraction_Spec Fraction_Proofs Canvas_Model Layout_Model Layout_Spec.
Import ListNotations.
Open Scope Z_scope.
Local Arguments Z.add : simpl never.
Local Arguments Z.sub : simpl never.
Local Arguments Z.mul : simpl never.
Local Arguments Z.max : simpl never.

Lemma fold_add : forall l a, fold_left Z.add l a = a + zsum l.
Proof. induction l as [|x l IH]; intros a; simpl; [lia|rewrite IH; lia]. Qed.
Lemma sumz_zsum : forall l, sumz l = zsum l.
Proof. intros; unfold sumz; rewrite fold_add; lia. Qed.

(** ** Row: shares *)

Lemma share_floor : forall R k T, 0 < T -> frac_floor (frac_mul_ratio (frac_of_int R) k T) = R * k / T.
Proof.
  intros R k T HT. rewrite frac_floor_value by apply frac_new_canonical.
  transitivity (Qfloor (ratio (R * k) T)).
  - apply Qfloor_proper.
    rewrite frac_mul_ratio_value by apply frac_new_canonical.
    unfold frac_of_int. rewrite frac_new_value. unfold ratio.
    rewrite inject_Z_mult. field. apply inject_nonzero; lia.
  - apply Qfloor_ratio; lia.
Qed.

Definition oz (o : option Z) : Z := match o with Some w => w | None => 0 end.

Lemma fr_floors_eq : forall R T l, 0 < T ->
  map (fr_floor R T) l = map (fun h => match h with HFr k => Some (R * k / T) | HFixed _ => None end) l.
Proof. intros. apply map_ext. intros [s|k]; simpl; [reflexivity|rewrite share_floor by lia; reflexivity]. Qed.

Definition frs (l : list hwidth) : Z := zsum (map (fun h => match h with HFr v => v | HFixed _ => 0 end) l).
Fixpoint frn (l : list hwidth) : Z := match l with [] => 0 | HFr _ :: r => 1 + frn r | _ :: r => frn r end.

Lemma floors_bound : forall R T l, 0 < T ->
  T * zsum (map oz (map (fr_floor R T) l)) <= R * frs l /\
  R * frs l - T * zsum (map oz (map (fr_floor R T) l)) <= (T - 1) * frn l.
Proof.
  intros R T l HT. rewrite fr_floors_eq by lia. rewrite map_map. unfold frs.
  induction l as [|[s|k] l IH]; cbn [map zsum frn oz].
  - lia.
  - lia.
  - pose proof (Z.div_mod (R * k) T ltac:(lia)) as D. pose proof (Z.mod_pos_bound (R * k) T HT) as M.
    rewrite !Z.mul_add_distr_l. cbn [oz]. destruct IH as [A B]. split; lia.
Qed.

Lemma frn_nonneg : forall l, 0 <= frn l.
Proof. induction l as [|[s|k] l IH]; cbn [frn]; lia. Qed.

Lemma hand_out_sum : forall l n, 0 <= n -> n <= zsum (map (fun o => match o with Some _ => 1 | None => 0 end) l) ->
  zsum (map oz (hand_out n l)) = zsum (map oz l) + n.
Proof.
  induction l as [|[w|] l IH]; intros n Hn Hl; simpl in *.
  - lia.
  - destruct (Z.leb_spec n 0).
    + simpl. assert (n = 0) by lia. subst. lia.
    + simpl. rewrite IH by lia. lia.
  - rewrite IH by lia. lia.
Qed.

Lemma hand_out_nth : forall l n i o, nth_error l i = Some o ->
  exists o', nth_error (hand_out n l) i = Some o' /\
    match o with None => o' = None | Some w => exists d, o' = Some (w + d) /\ 0 <= d <= 1 end.
Proof.
  induction l as [|[w|] l IH]; intros n i o Hi; [destruct i; discriminate| |].
  - simpl. destruct (Z.leb_spec n 0).
    + exists o. split; auto. destruct o as [x|]; [exists 0; split; [f_equal; lia|lia]|reflexivity].
    + destruct i as [|i]; simpl in *.
      * inversion Hi; subst. eexists; split; [reflexivity|]. exists 1. split; [reflexivity|lia].
      * apply IH; auto.
  - destruct i as [|i]; simpl in *.
    + inversion Hi; subst. eexists; split; reflexivity.
    + apply IH; auto.
Qed.

Lemma hand_out_length : forall l n, length (hand_out n l) = length l.
Proof.
  induction l as [|[w|] l IH]; intros n; simpl; auto.
  destruct (n <=? 0); simpl; auto.
Qed.

Lemma count_floors : forall R T l,
  zsum (map (fun o => match o with Some _ => 1 | None => 0 end) (map (fr_floor R T) l)) = frn l.
Proof. induction l as [|[s|k] l IH]; simpl in *; try rewrite IH; lia. Qed.

Lemma total_fr_frs : forall l, total_fr l = frs l.
Proof. intros; unfold total_fr; rewrite sumz_zsum; reflexivity. Qed.
Lemma fixed_sum_zsum : forall l, fixed_sum l = zsum (map oz l).
Proof. intros; unfold fixed_sum; rewrite sumz_zsum; reflexivity. Qed.

Lemma fr_pass_length : forall R l, length (fr_pass R l) = length l.
Proof.
  intros. unfold fr_pass. destruct (_ && _).
  - rewrite map_length, hand_out_length, map_length; auto.
  - rewrite map_length; auto.
Qed.

Lemma leftover_bounds : forall R l, 0 < frs l -> 
  let fl := map (fr_floor R (frs l)) l in
  0 <= R - fixed_sum fl /\ R - fixed_sum fl <= frn l.
Proof.
  intros R l HT fl. rewrite fixed_sum_zsum.
  destruct (floors_bound R (frs l) l HT) as [A B]. fold fl in A, B.
  pose proof (frn_nonneg l). split; nia.
Qed.

Lemma fr_pass_sum : forall R l, 0 < R -> 0 < frs l -> zsum (fr_pass R l) = R.
Proof.
  intros R l HR HT. unfold fr_pass. rewrite total_fr_frs.
  destruct (Z.ltb_spec 0 (frs l)); [|lia]. destruct (Z.ltb_spec 0 R); [|lia]. simpl.
  destruct (leftover_bounds R l HT) as [A B].
  change (fun o : option Z => match o with Some w => w | None => 0 end) with oz.
  rewrite hand_out_sum; auto.
  - rewrite fixed_sum_zsum. lia.
  - rewrite count_floors. auto.
Qed.

Lemma fr_pass_nth : forall R l i h, 0 < R -> 0 < frs l -> nth_error l i = Some h ->
  exists w, nth_error (fr_pass R l) i = Some w /\
    match h with HFixed _ => w = 0 | HFr k => R * k / frs l <= w <= R * k / frs l + 1 end.
Proof.
  intros R l i h HR HT Hi. unfold fr_pass. rewrite total_fr_frs.
  destruct (Z.ltb_spec 0 (frs l)); [|lia]. destruct (Z.ltb_spec 0 R); [|lia]. simpl.
  assert (Hf : nth_error (map (fr_floor R (frs l)) l) i = Some (fr_floor R (frs l) h))
    by (apply map_nth_error; auto).
  destruct (hand_out_nth _ (R - fixed_sum (map (fr_floor R (frs l)) l)) _ _ Hf) as (o' & Ho & Hd).
  exists (oz o'). split.
  - rewrite nth_error_map, Ho. reflexivity.
  - destruct h as [s|k]; simpl in Hd.
    + subst. reflexivity.
    + destruct Hd as (d & -> & Hd). simpl. rewrite share_floor in * by lia. lia.
Qed.

Lemma fr_pass_zero : forall R l, R <= 0 \/ frs l <= 0 -> fr_pass R l = map (fun _ => 0) l.
Proof.
  intros R l Hz. unfold fr_pass. rewrite total_fr_frs.
  destruct (Z.ltb_spec 0 (frs l)); destruct (Z.ltb_spec 0 R); simpl; auto; lia.
Qed.

(** ** Row: merging *)

Definition hbool (h : hwidth) : bool := match h with HFr _ => true | HFixed _ => false end.

Lemma fixed_pass_length : forall l rem, length (fixed_pass rem l) = length l.
Proof. induction l as [|[s|k] l IH]; intros; simpl; auto. Qed.

Lemma fixed_pass_kind : forall l rem i h, nth_error l i = Some h ->
  exists o, nth_error (fixed_pass rem l) i = Some o /\
   match h with HFr _ => o = None | HFixed _ => exists w, o = Some w end.
Proof.
  induction l as [|[s|k] l IH]; intros rem i h Hi; [destruct i; discriminate| |];
    (destruct i as [|i]; simpl in *; [inversion Hi; subst; eexists; split; [reflexivity|eauto]|apply IH; auto]).
Qed.

Lemma combine_map_l : forall (A B C : Type) (f : A -> C) (l : list A) (m : list B),
  combine (map f l) m = map (fun p => (f (fst p), snd p)) (combine l m).
Proof. induction l; intros [|b m]; simpl; auto; f_equal; auto. Qed.

Definition merge (fixed : list (option Z)) (fr : list Z) : list Z :=
  map (fun p => match fst p with Some w => w | None => snd p end) (combine fixed fr).

Lemma merge_length : forall a b, length a = length b -> length (merge a b) = length a.
Proof. intros; unfold merge; rewrite map_length, combine_length; lia. Qed.

(* sums of fixed and fr parts of a merged list *)
Lemma merge_fixed_sum : forall l rem ws, length ws = length l ->
  zsum (map (fun x => if hbool (fst x) then 0 else snd x) (combine l (merge (fixed_pass rem l) ws)))
  = zsum (map oz (fixed_pass rem l)).
Proof.
  induction l as [|[s|k] l IH]; intros rem [|w ws] Hl; simpl in *; try discriminate; auto.
  - unfold merge in *. simpl. rewrite IH by lia. lia.
  - unfold merge in *. simpl. rewrite IH by lia. lia.
Qed.

Lemma merge_fr_sum : forall l rem ws, length ws = length l ->
  (forall i s, nth_error l i = Some (HFixed s) -> nth_error ws i = Some 0) ->
  zsum (map (fun x => if hbool (fst x) then snd x else 0) (combine l (merge (fixed_pass rem l) ws))) = zsum ws.
Proof.
  induction l as [|h l IH]; intros rem [|w ws] Hl Hz; simpl in *; try discriminate; auto.
  destruct h as [s|k]; unfold merge in *; simpl.
  - rewrite IH; [|lia|intros i s' Hi; apply (Hz (S i) s' Hi)].
    specialize (Hz 0%nat s eq_refl). simpl in Hz. inversion Hz. lia.
  - rewrite IH; [|lia|intros i s' Hi; apply (Hz (S i) s' Hi)]. lia.
Qed.

(** ** Placing a row *)

Lemma row_place_length : forall l first prev x a v, length (row_place first prev x a v l) = length l.
Proof. induction l as [|[c w] l IH]; intros; simpl; auto. Qed.

Lemma row_place_widths : forall l first prev x a v,
  map p_width (row_place first prev x a v l) = map (fun p => clamp_width (ch_style (fst p)) a v (snd p)) l.
Proof. induction l as [|[c w] l IH]; intros; simpl; auto. rewrite IH. reflexivity. Qed.

Lemma row_place_index : forall l first prev x a v,
  map pl_index (row_place first prev x a v l) = map (fun p => ch_index (fst p)) l.
Proof. induction l as [|[c w] l IH]; intros; simpl; auto. rewrite IH. reflexivity. Qed.

Lemma row_widths_length : forall cs a v, length (row_widths cs a v) = length cs.
Proof.
  intros. unfold row_widths.
  rewrite map_length, combine_length, fixed_pass_length, fr_pass_length, map_length. lia.
Qed.

Lemma row_place_first : forall c w l prev x a v p,
  nth_error (row_place true prev x a v ((c, w) :: l)) 0 = Some p -> p_left p = x + m_left c.
Proof. intros. simpl in H. inversion H. reflexivity. Qed.

Lemma row_place_gap : forall l first prev x a v i p q c d,
  nth_error (row_place first prev x a v l) i = Some p ->
  nth_error (row_place first prev x a v l) (S i) = Some q ->
  nth_error (map fst l) i = Some c -> nth_error (map fst l) (S i) = Some d ->
  p_left q = p_right p + Z.max (m_right c) (m_left d).
Proof.
  induction l as [|[c0 w0] l IH]; intros first prev x a v i p q c d Hp Hq Hc Hd; [destruct i; discriminate|].
  destruct i as [|i].
  - destruct l as [|[c1 w1] l]; [simpl in Hq; discriminate|].
    simpl in Hp, Hq, Hc, Hd. inversion Hp; inversion Hq; inversion Hc; inversion Hd; subst.
    unfold p_left, p_right, m_right, m_left. simpl. lia.
  - cbn [row_place nth_error] in Hp, Hq. cbn [map nth_error fst] in Hc, Hd.
    eapply IH; [exact Hp|exact Hq|exact Hc|exact Hd].
Qed.

Lemma combine_fst : forall (A B : Type) (l : list A) (m : list B), length m = length l -> map fst (combine l m) = l.
Proof. induction l; intros [|b m] H; simpl in *; try discriminate; auto. f_equal; auto. Qed.
Lemma combine_snd : forall (A B : Type) (l : list A) (m : list B), length m = length l -> map snd (combine l m) = m.
Proof. induction l; intros [|b m] H; simpl in *; try discriminate; auto. f_equal; auto. Qed.

Lemma horizontal_gap : forall cs a v i p q c d,
  nth_error (horizontal_arrange cs a v) i = Some p ->
  nth_error (horizontal_arrange cs a v) (S i) = Some q ->
  nth_error cs i = Some c -> nth_error cs (S i) = Some d ->
  p_left q = p_right p + Z.max (m_right c) (m_left d).
Proof.
  intros. unfold horizontal_arrange in *.
  eapply row_place_gap; eauto; rewrite combine_fst by apply row_widths_length; auto.
Qed.

Lemma horizontal_first : forall c cs a v p,
  nth_error (horizontal_arrange (c :: cs) a v) 0 = Some p -> p_left p = rg_x a + m_left c.
Proof.
  intros c cs a v p H. unfold horizontal_arrange in H.
  pose proof (row_widths_length (c :: cs) a v) as Hl.
  destruct (row_widths (c :: cs) a v) as [|w ws]; [discriminate|].
  simpl in H. inversion H. reflexivity.
Qed.

Lemma horizontal_index : forall cs a v, map pl_index (horizontal_arrange cs a v) = map ch_index cs.
Proof.
  intros. unfold horizontal_arrange. rewrite row_place_index.
  rewrite <- (map_map fst ch_index). rewrite combine_fst by apply row_widths_length. reflexivity.
Qed.

Lemma horizontal_length : forall cs a v, length (horizontal_arrange cs a v) = length cs.
Proof. intros. unfold horizontal_arrange. rewrite row_place_length, combine_length, row_widths_length. lia. Qed.

Lemma clamp_none : forall c a v w, no_width_limits c -> clamp_width (ch_style c) a v w = w.
Proof. intros c a v w [H1 H2]. unfold clamp_width. rewrite H1, H2. reflexivity. Qed.

Lemma horizontal_widths : forall cs a v, Forall no_width_limits cs ->
  map p_width (horizontal_arrange cs a v) = row_widths cs a v.
Proof.
  intros cs a v Hc. unfold horizontal_arrange. rewrite row_place_widths.
  pose proof (row_widths_length cs a v) as Hl. revert Hl. generalize (row_widths cs a v).
  induction Hc as [|c cs H1 H2 IH]; intros [|w ws] Hl; simpl in *; try discriminate; auto.
  rewrite clamp_none by auto. f_equal. apply IH. lia.
Qed.

(** *** flexible children are the fr ones *)
Lemma hwidth_flex : forall a v c, hbool (hwidth_of a v c) = flexible c.
Proof.
  intros. unfold hwidth_of, flexible, fr_weight, auto_width, u16_max.
  destruct (l_width (ch_style c)) as [[q u]|]; simpl; [destruct u|]; auto; destruct (ch_dw c =? 65535); auto.
Qed.
Lemma hwidth_weight : forall a v c,
  match hwidth_of a v c with HFr k => fr_weight c = Some k | HFixed _ => fr_weight c = None end.
Proof.
  intros. unfold hwidth_of, fr_weight, auto_width, u16_max.
  destruct (l_width (ch_style c)) as [[q u]|]; simpl; [destruct u|]; auto; destruct (ch_dw c =? 65535); auto.
Qed.
Lemma frs_weights : forall a v cs, frs (map (hwidth_of a v) cs) = weights cs.
Proof.
  intros. unfold frs, weights. rewrite map_map. f_equal. apply map_ext. intros c.
  pose proof (hwidth_weight a v c). unfold weight. destruct (hwidth_of a v c); rewrite H; auto.
Qed.

Lemma width_where_widths : forall p cs ps,
  width_where p cs ps = zsum (map (fun x => if p (fst x) then snd x else 0) (combine cs (map p_width ps))).
Proof.
  intros p cs ps. unfold width_where. revert ps. induction cs as [|c cs IH]; intros [|q ps]; simpl; auto.
  rewrite IH. reflexivity.
Qed.

Lemma combine_map_flex : forall a v cs (ws : list Z) (f : bool -> Z -> Z),
  map (fun x => f (flexible (fst x)) (snd x)) (combine cs ws)
  = map (fun x => f (hbool (fst x)) (snd x)) (combine (map (hwidth_of a v) cs) ws).
Proof.
  intros a v. induction cs as [|c cs IH]; intros [|w ws] f; simpl; auto.
  rewrite hwidth_flex. f_equal. apply IH.
Qed.

Lemma margin_pass_gaps : forall cs prev,
  margin_pass false prev cs = match cs with [] => 0 | c :: _ => Z.max prev (m_left c) - prev end + gaps_after cs.
Proof.
  induction cs as [|c cs IH]; intros prev; [reflexivity|].
  cbn [margin_pass gaps_after]. rewrite IH. fold (m_left c) (m_right c). destruct cs as [|d cs]; lia.
Qed.
Lemma margin_pass_row : forall cs, margin_pass true 0 cs = row_gaps cs.
Proof.
  intros [|c cs]; [reflexivity|].
  unfold row_gaps. cbn [margin_pass gaps_after]. rewrite margin_pass_gaps. fold (m_left c) (m_right c).
  destruct cs as [|d cs]; lia.
Qed.

Definition row_remaining (cs : list child) (a : region) (v : viewport) : Z :=
  rg_w a - zsum (map oz (fixed_pass frac_zero (map (hwidth_of a v) cs))) - row_gaps cs.

Lemma row_widths_merge : forall cs a v,
  row_widths cs a v = merge (fixed_pass frac_zero (map (hwidth_of a v) cs))
     (fr_pass (Z.max (row_remaining cs a v) 0) (map (hwidth_of a v) cs)).
Proof.
  intros. unfold row_widths, row_remaining, merge. rewrite margin_pass_row, fixed_sum_zsum. reflexivity.
Qed.

Lemma fr_pass_fixed_zero : forall R l i s, nth_error l i = Some (HFixed s) -> nth_error (fr_pass R l) i = Some 0.
Proof.
  intros R l i s Hi. destruct (Z_lt_dec 0 R); [destruct (Z_lt_dec 0 (frs l))|].
  - destruct (fr_pass_nth R l i _ l0 l1 Hi) as (w & Hw & E). simpl in E. subst. auto.
  - rewrite fr_pass_zero by lia. rewrite nth_error_map, Hi. reflexivity.
  - rewrite fr_pass_zero by lia. rewrite nth_error_map, Hi. reflexivity.
Qed.

Lemma fixed_widths_sum : forall cs a v, Forall no_width_limits cs ->
  width_where (fun c => negb (flexible c)) cs (horizontal_arrange cs a v)
  = zsum (map oz (fixed_pass frac_zero (map (hwidth_of a v) cs))).
Proof.
  intros cs a v Hc. rewrite width_where_widths, horizontal_widths by auto.
  rewrite (combine_map_flex a v cs _ (fun b w => if negb b then w else 0)).
  rewrite row_widths_merge.
  rewrite <- (merge_fixed_sum _ frac_zero (fr_pass (Z.max (row_remaining cs a v) 0) (map (hwidth_of a v) cs)))
    by apply fr_pass_length.
  f_equal. apply map_ext. intros [h w]. simpl. destruct (hbool h); reflexivity.
Qed.

Lemma flex_widths_sum : forall cs a v, Forall no_width_limits cs ->
  width_where flexible cs (horizontal_arrange cs a v)
  = zsum (fr_pass (Z.max (row_remaining cs a v) 0) (map (hwidth_of a v) cs)).
Proof.
  intros cs a v Hc. rewrite width_where_widths, horizontal_widths by auto.
  rewrite (combine_map_flex a v cs _ (fun b w => if b then w else 0)).
  rewrite row_widths_merge, merge_fr_sum; auto.
  - rewrite fr_pass_length. auto.
  - intros i s Hi. eapply fr_pass_fixed_zero; eauto.
Qed.

Lemma merge_nth : forall l m i o w, nth_error l i = Some o -> nth_error m i = Some w ->
  nth_error (merge l m) i = Some (match o with Some x => x | None => w end).
Proof.
  unfold merge. induction l as [|x l IH]; intros [|y m] [|i] o w Hl Hm; simpl in *; try discriminate.
  - inversion Hl; inversion Hm; subst; auto.
  - eapply IH; eauto.
Qed.

Lemma placed_width : forall cs a v i p, Forall no_width_limits cs ->
  nth_error (horizontal_arrange cs a v) i = Some p ->
  nth_error (row_widths cs a v) i = Some (p_width p).
Proof.
  intros. rewrite <- horizontal_widths by auto. rewrite nth_error_map, H0. reflexivity.
Qed.

Definition free_width (cs : list child) (a : region) (v : viewport) : Z :=
  rg_w a - width_where (fun c => negb (flexible c)) cs (horizontal_arrange cs a v) - row_gaps cs.

Lemma free_remaining : forall cs a v, Forall no_width_limits cs -> free_width cs a v = row_remaining cs a v.
Proof. intros. unfold free_width, row_remaining. rewrite fixed_widths_sum; auto. Qed.

Lemma fr_sum : forall cs a v, Forall no_width_limits cs -> 0 < free_width cs a v -> 0 < weights cs ->
  width_where flexible cs (horizontal_arrange cs a v) = free_width cs a v.
Proof.
  intros cs a v Hc Hf Hw. rewrite free_remaining in * by auto.
  rewrite flex_widths_sum by auto. rewrite Z.max_l by lia. apply fr_pass_sum; auto. rewrite frs_weights. auto.
Qed.

Lemma fr_each : forall cs a v i c k p, Forall no_width_limits cs -> 0 < free_width cs a v -> 0 < weights cs ->
  nth_error cs i = Some c -> fr_weight c = Some k -> nth_error (horizontal_arrange cs a v) i = Some p ->
  free_width cs a v * k / weights cs <= p_width p <= free_width cs a v * k / weights cs + 1.
Proof.
  intros cs a v i c k p Hc Hf Hw Hi Hk Hp. rewrite free_remaining in * by auto.
  apply placed_width in Hp; auto. rewrite row_widths_merge in Hp.
  assert (Hh : nth_error (map (hwidth_of a v) cs) i = Some (hwidth_of a v c)) by (apply map_nth_error; auto).
  destruct (fixed_pass_kind _ frac_zero _ _ Hh) as (o & Ho & Hk').
  pose proof (hwidth_weight a v c) as Hwt.
  destruct (hwidth_of a v c) as [s|k0] eqn:E; [congruence|]. assert (k0 = k) by congruence. subst k0 o.
  rewrite Z.max_l in Hp by lia.
  rewrite <- (frs_weights a v) in *.
  destruct (fr_pass_nth _ _ _ _ Hf Hw Hh) as (w & Hw' & Hb).
  rewrite (merge_nth _ _ _ _ _ Ho Hw') in Hp. inversion Hp; subst. exact Hb.
Qed.

Lemma fr_starved : forall cs a v i c p, Forall no_width_limits cs -> free_width cs a v <= 0 ->
  nth_error cs i = Some c -> flexible c = true -> nth_error (horizontal_arrange cs a v) i = Some p ->
  p_width p = 0.
Proof.
  intros cs a v i c p Hc Hf Hi Hk Hp. rewrite free_remaining in * by auto.
  apply placed_width in Hp; auto. rewrite row_widths_merge in Hp.
  assert (Hh : nth_error (map (hwidth_of a v) cs) i = Some (hwidth_of a v c)) by (apply map_nth_error; auto).
  destruct (fixed_pass_kind _ frac_zero _ _ Hh) as (o & Ho & Hk').
  pose proof (hwidth_flex a v c) as Hwt. rewrite Hk in Hwt.
  destruct (hwidth_of a v c) as [s|k0] eqn:E; [discriminate|]. subst o.
  rewrite fr_pass_zero in Hp by lia.
  assert (Hz : nth_error (map (fun _ : hwidth => 0) (map (hwidth_of a v) cs)) i = Some 0)
    by (rewrite nth_error_map, Hh; reflexivity).
  rewrite (merge_nth _ _ _ _ _ Ho Hz) in Hp. inversion Hp; auto.
Qed.

Lemma width_where_split : forall f cs ps, length ps = length cs ->
  zsum (map p_width ps) = width_where f cs ps + width_where (fun c => negb (f c)) cs ps.
Proof.
  intros f. unfold width_where. induction cs as [|c cs IH]; intros [|p ps] H; simpl in *; try discriminate; auto.
  rewrite (IH ps) by lia. destruct (f c); simpl; lia.
Qed.

(* fixed widths against their exact values *)
Definition fixed_share (h : hwidth) : Q := match h with HFixed s => value s | HFr _ => 0%Q end.

Lemma fixed_pass_total : forall l rem, canonical rem -> (0 <= value rem)%Q -> (value rem < 1)%Q ->
  Forall (fun h => match h with HFixed s => canonical s | HFr _ => True end) l ->
  zsum (map oz (fixed_pass rem l)) = Qfloor (qsum (map fixed_share l) + value rem).
Proof.
  induction l as [|[s|k] l IH]; intros rem Hc H0 H1 Hf; cbn [map zsum fixed_pass qsum fixed_share oz].
  - symmetry. assert (E : Qfloor (0 + value rem) = Qfloor (value rem + 0)) by (apply Qfloor_proper; ring).
    rewrite E. apply floor_unit_0; auto.
  - inversion Hf as [|? ? H2 H3]; subst.
    assert (C : canonical (frac_add s rem)) by apply frac_new_canonical.
    destruct (frac_fract_range _ C) as [F0 F1].
    rewrite IH; auto; [|apply frac_new_canonical].
    rewrite frac_floor_value by auto. rewrite Z.add_comm, <- Qfloor_plus_int. apply Qfloor_proper.
    pose proof (frac_fract_value _ C) as E1. pose proof (frac_add_value _ _ H2 Hc) as E2.
    set (F := Qfloor (value (frac_add s rem))) in *. lra.
  - inversion Hf; subst. rewrite IH; auto. apply Qfloor_proper. ring.
Qed.

(** ** Non-negative widths and no overlap *)

Lemma trunc_nonneg : forall q, (0 <= q)%Q -> 0 <= trunc q.
Proof.
  intros [n d] H. unfold trunc, Qle in *. simpl in *. rewrite Z.mul_1_r in H.
  apply Z.quot_pos; lia.
Qed.
Lemma round_nonneg : forall q, (0 <= q)%Q -> 0 <= round q.
Proof.
  intros q H. unfold round. apply Qle_bool_iff in H. rewrite H. apply Qle_bool_iff in H.
  assert (E : 0 = Qfloor 0) by reflexivity. rewrite E. apply Qfloor_resp_le. lra.
Qed.
Lemma pct_nonneg : forall q n, (0 <= q)%Q -> 0 <= n -> (0 <= pct q n)%Q.
Proof.
  intros q n Hq Hn. unfold pct. apply Qmult_le_0_compat.
  - unfold Qdiv. apply Qmult_le_0_compat; auto. unfold Qle, Qinv; simpl; lia.
  - rewrite <- (Zle_Qle 0). auto.
Qed.

Lemma ratio_nonneg : forall n d, 0 <= n -> 0 <= d -> (0 <= ratio n d)%Q.
Proof.
  intros n d Hn Hd. unfold ratio, Qdiv. apply Qmult_le_0_compat.
  - rewrite <- (Zle_Qle 0). auto.
  - apply Qinv_le_0_compat. rewrite <- (Zle_Qle 0). auto.
Qed.
Lemma frac_new_nonneg : forall n d, 0 <= n -> 0 <= d -> (0 <= value (frac_new n d))%Q.
Proof. intros. rewrite frac_new_value. apply ratio_nonneg; auto. Qed.
Lemma frac_add_nonneg : forall a b, canonical a -> canonical b -> (0 <= value a)%Q -> (0 <= value b)%Q ->
  (0 <= value (frac_add a b))%Q.
Proof. intros. rewrite frac_add_value by auto. lra. Qed.

Definition good_h (h : hwidth) : Prop := match h with HFixed s => canonical s /\ (0 <= value s)%Q | HFr k => 0 <= k end.

Lemma b2z_nonneg : forall b, 0 <= b2z b. Proof. destruct b; simpl; lia. Qed.

Lemma chrome_nonneg : forall c, nonneg_child c -> 0 <= horizontal_chrome (ch_style c) /\ 0 <= vertical_chrome (ch_style c).
Proof.
  intros c H. unfold nonneg_child in H. decompose [and] H. unfold horizontal_chrome, vertical_chrome.
  pose proof (b2z_nonneg (l_bl (ch_style c))). pose proof (b2z_nonneg (l_br (ch_style c))).
  pose proof (b2z_nonneg (l_bt (ch_style c))). pose proof (b2z_nonneg (l_bb (ch_style c))).
  repeat match goal with H : (0 <= _)%Q |- _ => apply trunc_nonneg in H end. lia.
Qed.

Lemma box_width_nonneg : forall c w, nonneg_child c -> 0 <= w -> 0 <= apply_box_sizing_width w (ch_style c).
Proof.
  intros c w H Hw. destruct (chrome_nonneg c H). unfold apply_box_sizing_width.
  destruct (l_content_box _); lia.
Qed.
Lemma box_height_nonneg' : forall c w, nonneg_child c -> 0 <= w -> 0 <= apply_box_sizing_height w (ch_style c).
Proof.
  intros c w H Hw. destruct (chrome_nonneg c H). unfold apply_box_sizing_height.
  destruct (l_content_box _); lia.
Qed.

Lemma good_pct : forall c q n, nonneg_child c -> (0 <= q)%Q -> 0 <= n ->
  good_h (HFixed (box_fraction (percent_to_fraction q n) (ch_style c))).
Proof.
  intros c q n Hc Hq Hn. destruct (chrome_nonneg c Hc) as [Hh _].
  assert (P : (0 <= value (percent_to_fraction q n))%Q).
  { unfold percent_to_fraction. apply frac_new_nonneg; [|lia].
    apply Z.mul_nonneg_nonneg; auto. apply round_nonneg. lra. }
  unfold box_fraction. simpl. destruct (l_content_box _).
  - split; [apply frac_new_canonical|]. apply frac_add_nonneg; try apply frac_new_canonical; auto.
    unfold frac_of_int. apply frac_new_nonneg; lia.
  - split; [apply frac_new_canonical|auto].
Qed.

Lemma good_auto : forall c, 0 <= ch_dw c -> good_h (auto_width c).
Proof.
  intros c H. unfold auto_width. destruct (_ =? _); simpl; [lia|].
  split; [apply frac_new_canonical|]. unfold frac_of_int. apply frac_new_nonneg; lia.
Qed.

Lemma good_hwidth : forall a v c, nonneg_child c -> nonneg_region a -> nonneg_viewport v -> good_h (hwidth_of a v c).
Proof.
  intros a v c Hc [Ra Rb] [Va Vb]. pose proof Hc as Hc'. unfold nonneg_child in Hc'.
  destruct Hc' as (Hw & Hrest). assert (Hdw : 0 <= ch_dw c) by tauto. unfold hwidth_of.
  destruct (l_width (ch_style c)) as [[q u]|]; simpl in Hw; [|apply good_auto; auto].
  cbn [s_unit s_value]. destruct u; try (apply good_pct; auto; fail).
  - split; [apply frac_new_canonical|]. unfold frac_of_int. apply frac_new_nonneg; [|lia].
    apply box_width_nonneg; auto. apply trunc_nonneg; auto.
  - simpl. apply trunc_nonneg. lra.
  - apply good_auto; auto.
Qed.

Lemma fixed_pass_nonneg : forall l rem, Forall good_h l -> canonical rem -> (0 <= value rem)%Q ->
  Forall (fun o => 0 <= oz o) (fixed_pass rem l).
Proof.
  induction l as [|[s|k] l IH]; intros rem Hg Hc Hr; simpl; constructor; inversion Hg; subst; simpl; auto; try lia.
  - destruct H1 as [C V]. rewrite frac_floor_value by apply frac_new_canonical.
    assert (E : 0 = Qfloor 0) by reflexivity. rewrite E. apply Qfloor_resp_le.
    apply frac_add_nonneg; auto.
  - apply IH; auto; [apply frac_new_canonical|].
    destruct (frac_fract_range (frac_add s rem)) as [A _]; [apply frac_new_canonical|auto].
Qed.

Lemma frs_nonneg : forall l, Forall good_h l -> 0 <= frs l.
Proof.
  unfold frs. induction 1 as [|h l Hh Hl IH]; simpl; [lia|]. destruct h; simpl in *; lia.
Qed.

Lemma fr_pass_nonneg : forall R l, Forall good_h l -> Forall (fun w => 0 <= w) (fr_pass R l).
Proof.
  intros R l Hg. apply Forall_forall. intros w Hw. apply In_nth_error in Hw. destruct Hw as [i Hi].
  destruct (Z_lt_dec 0 R); [destruct (Z_lt_dec 0 (frs l))|].
  - assert (Hl : (i < length l)%nat) by (rewrite <- (fr_pass_length R l); apply nth_error_Some; congruence).
    destruct (nth_error l i) as [h|] eqn:E; [|apply nth_error_None in E; lia].
    destruct (fr_pass_nth R l i h l0 l1 E) as (w' & Hw' & B). rewrite Hi in Hw'. inversion Hw'; subst w'.
    destruct h as [s|value0]; [lia|]. rewrite Forall_forall in Hg. specialize (Hg _ (nth_error_In _ _ E)). simpl in Hg.
    assert (0 <= R * value0 / frs l) by (apply Z.div_pos; nia). lia.
  - rewrite fr_pass_zero in Hi by lia. rewrite nth_error_map in Hi. destruct (nth_error l i); inversion Hi; lia.
  - rewrite fr_pass_zero in Hi by lia. rewrite nth_error_map in Hi. destruct (nth_error l i); inversion Hi; lia.
Qed.

Lemma merge_nonneg : forall a b, Forall (fun o => 0 <= oz o) a -> Forall (fun w => 0 <= w) b ->
  Forall (fun w => 0 <= w) (merge a b).
Proof.
  unfold merge. induction a as [|[x|] a IH]; intros [|y b] Ha Hb; simpl; auto;
    inversion Ha; inversion Hb; subst; constructor; simpl in *; auto; apply IH; auto.
Qed.

Lemma good_all : forall cs a v, Forall nonneg_child cs -> nonneg_region a -> nonneg_viewport v ->
  Forall good_h (map (hwidth_of a v) cs).
Proof.
  intros. apply Forall_map. eapply Forall_impl; [|exact H]. intros; apply good_hwidth; auto.
Qed.

Lemma row_widths_nonneg : forall cs a v, Forall nonneg_child cs -> nonneg_region a -> nonneg_viewport v ->
  Forall (fun w => 0 <= w) (row_widths cs a v).
Proof.
  intros. rewrite row_widths_merge. pose proof (good_all cs a v H H0 H1).
  apply merge_nonneg; [|apply fr_pass_nonneg; auto].
  apply fixed_pass_nonneg; auto; [apply canonical_zero|]. rewrite value_zero. lra.
Qed.

Lemma constraint_z_nonneg : forall m a v, nonneg_scalar (Some m) -> nonneg_region a -> nonneg_viewport v ->
  0 <= constraint_z m a v.
Proof.
  intros m a v H [A B] [C D]. simpl in H. unfold constraint_z.
  destruct (s_unit m); apply trunc_nonneg; auto; apply pct_nonneg; auto.
Qed.

Lemma clamp_width_nonneg : forall c a v w, nonneg_child c -> nonneg_region a -> nonneg_viewport v -> 0 <= w ->
  0 <= clamp_width (ch_style c) a v w.
Proof.
  intros c a v w Hc Ha Hv Hw. unfold nonneg_child in Hc. destruct Hc as (_ & _ & H1 & H2 & _).
  unfold clamp_width. destruct (l_max_width (ch_style c)) as [m|]; destruct (l_min_width (ch_style c)) as [n|];
  try pose proof (constraint_z_nonneg m a v H2 Ha Hv); try pose proof (constraint_z_nonneg n a v H1 Ha Hv); lia.
Qed.

Lemma horizontal_width_nonneg : forall cs a v p, Forall nonneg_child cs -> nonneg_region a -> nonneg_viewport v ->
  In p (horizontal_arrange cs a v) -> 0 <= p_width p.
Proof.
  intros cs a v p Hc Ha Hv Hp.
  assert (Hw : In (p_width p) (map p_width (horizontal_arrange cs a v))) by (apply in_map; auto).
  unfold horizontal_arrange in Hw. rewrite row_place_widths in Hw. apply in_map_iff in Hw.
  destruct Hw as ([c w] & E & Hin). rewrite <- E. simpl.
  pose proof (in_combine_l _ _ _ _ Hin) as HL. pose proof (in_combine_r _ _ _ _ Hin) as HR.
  rewrite Forall_forall in Hc. apply clamp_width_nonneg; auto.
  pose proof (row_widths_nonneg cs a v) as HN. rewrite !Forall_forall in HN.
  apply HN; auto.
Qed.

Lemma nth_error_ex : forall (A : Type) (l : list A) i, (i < length l)%nat -> exists x, nth_error l i = Some x.
Proof. intros A l i H. destruct (nth_error l i) eqn:E; eauto. apply nth_error_None in E. lia. Qed.

(* a chain of ordered intervals is pairwise ordered *)
Lemma chain_order : forall (lo hi : placement -> Z) (ps : list placement),
  (forall p, In p ps -> lo p <= hi p) ->
  (forall i p q, nth_error ps i = Some p -> nth_error ps (S i) = Some q -> hi p <= lo q) ->
  forall i j p q, (i < j)%nat -> nth_error ps i = Some p -> nth_error ps j = Some q -> hi p <= lo q.
Proof.
  intros lo hi ps Hle Hch i j. induction j as [|j IH]; intros p q Hij Hp Hq; [lia|].
  destruct (Nat.eq_dec i j) as [->|Hne]; [eapply Hch; eauto|].
  destruct (nth_error_ex _ ps j) as [r Hr].
  { apply Nat.lt_trans with (S j); [lia|]. apply nth_error_Some. congruence. }
  assert (hi p <= lo r) by (apply (IH p r); auto; lia).
  assert (lo r <= hi r) by (apply Hle; eapply nth_error_In; eauto).
  assert (hi r <= lo q) by (eapply Hch; eauto). lia.
Qed.

Lemma horizontal_order : forall cs a v i j p q, Forall nonneg_child cs -> nonneg_region a -> nonneg_viewport v ->
  (i < j)%nat -> nth_error (horizontal_arrange cs a v) i = Some p -> nth_error (horizontal_arrange cs a v) j = Some q ->
  p_right p <= p_left q.
Proof.
  intros cs a v i j p q Hc Ha Hv Hij Hp Hq.
  apply (chain_order p_left p_right (horizontal_arrange cs a v)) with (i := i) (j := j); auto.
  - intros r Hr. pose proof (horizontal_width_nonneg cs a v r Hc Ha Hv Hr). unfold p_left, p_right, p_width in *. lia.
  - intros k r s Hr Hs.
    destruct (nth_error_ex _ cs k) as [c Hck]; [rewrite <- (horizontal_length cs a v); apply nth_error_Some; congruence|].
    destruct (nth_error_ex _ cs (S k)) as [d Hd]; [rewrite <- (horizontal_length cs a v); apply nth_error_Some; congruence|].
    rewrite (horizontal_gap cs a v k r s c d) by auto.
    rewrite Forall_forall in Hc. pose proof (Hc _ (nth_error_In _ _ Hck)) as Hn.
    unfold nonneg_child in Hn. assert (Hm : (0 <= l_mr (ch_style c))%Q) by tauto.
    apply trunc_nonneg in Hm. unfold m_right. lia.
Qed.

(* total extent of a row *)
Lemma row_extent : forall l first prev x a v, l <> [] ->
  exists p, nth_error (row_place first prev x a v l) (length l - 1) = Some p /\
   p_right p + match rev (map fst l) with c :: _ => m_right c | [] => 0 end
   = x + (if first then 0 else - prev)
     + (match map fst l with c :: _ => if first then m_left c else Z.max prev (m_left c) | [] => 0 end)
     + zsum (map p_width (row_place first prev x a v l)) + gaps_after (map fst l).
Proof.
  induction l as [|[c w] l IH]; intros first prev x a v Hne; [congruence|].
  destruct l as [|[d w'] l].
  - simpl. eexists; split; [reflexivity|]. unfold p_right, p_width, m_right, m_left; simpl. destruct first; lia.
  - set (L := (d, w') :: l) in *.
    cbn [row_place]. cbn [length]. rewrite Nat.sub_succ, Nat.sub_0_r.
    assert (HL : length L = S (length L - 1)) by (unfold L; simpl; lia).
    set (x1 := x + (if first then trunc (l_ml (ch_style c)) else Z.max (trunc (l_ml (ch_style c)) - prev) 0)).
    set (w1 := clamp_width (ch_style c) a v w).
    destruct (IH false (trunc (l_mr (ch_style c))) (x1 + w1 + trunc (l_mr (ch_style c))) a v) as (p & Hp & E);
      [unfold L; discriminate|].
    exists p. split.
    + rewrite HL. cbn [nth_error]. exact Hp.
    + cbn [map fst rev]. 
      assert (R : match rev (map fst L) ++ [c] with c0 :: _ => m_right c0 | [] => 0 end
                = match rev (map fst L) with c0 :: _ => m_right c0 | [] => 0 end).
      { destruct (rev (map fst L)) eqn:ER; [|reflexivity].
        assert (length (rev (map fst L)) = length L) by (rewrite rev_length, map_length; auto).
        rewrite ER in H. simpl in H. lia. }
      rewrite R, E. cbn [map zsum gaps_after].
      change (p_width _) with w1 at 1.
      unfold x1. fold (m_left c) (m_right c).
      unfold L. cbn [map fst]. destruct first; lia.
Qed.
