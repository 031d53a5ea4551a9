(** Lemmas about scroll bars. *)
From Coq Require Import ZArith QArith Qround List Bool Lia Lqa.
From Verif Require Import Float32_Model Float32_Proofs Scroll_Model Bars_Model Bars_Spec.
Import ListNotations.
Open Scope Z_scope.

(** *** The picture *)
Lemma shown_app : forall a b x y, shown (a ++ b) x y = match shown b x y with Some p => Some p | None => shown a x y end.
Proof. induction a as [|p a IH]; intros b x y; cbn [app shown]. { destruct (shown b x y); reflexivity. } rewrite IH. destruct (shown b x y); reflexivity. Qed.
Lemma shown_none : forall ps x y, (forall p, In p ps -> pt_x p <> x \/ pt_y p <> y) -> shown ps x y = None.
Proof.
  induction ps as [|p ps IH]; intros x y H; auto. cbn [shown]. rewrite IH by (intros; apply H; right; auto).
  destruct (H p (or_introl eq_refl)) as [N|N]; apply Z.eqb_neq in N; rewrite N; auto. rewrite andb_false_r. auto.
Qed.
Lemma shown_some : forall ps x y p, In p ps -> pt_x p = x -> pt_y p = y -> (forall q, In q ps -> pt_x q = x -> pt_y q = y -> q = p) -> shown ps x y = Some p.
Proof.
  induction ps as [|q ps IH]; intros x y p I X Y U; [destruct I|]. cbn [shown].
  destruct (shown ps x y) as [z|] eqn:E.
  - destruct I as [->|I].
    + assert (IZ : exists z', In z' ps /\ pt_x z' = x /\ pt_y z' = y /\ z' = z).
      { clear -E. revert E. induction ps as [|a ps IH]; cbn [shown]; [discriminate|]. destruct (shown ps x y) as [w|]; intros E.
        - inversion E; subst. destruct (IH eq_refl) as (z' & A & B & C & D). exists z'. split; [right|]; auto.
        - destruct ((pt_x a =? x) && (pt_y a =? y)) eqn:B; [|discriminate]. inversion E; subst. apply andb_true_iff in B. rewrite !Z.eqb_eq in B. exists z. split; [left|]; tauto. }
      destruct IZ as (z' & A & B & C & D). subst z'. rewrite (U z); auto. right; auto.
    + rewrite <- E. apply IH; auto. intros; apply U; auto. right; auto.
  - destruct I as [->|I].
    + rewrite X, Y, !Z.eqb_refl. reflexivity.
    + exfalso. rewrite (IH x y p I X Y) in E; [discriminate|]. intros; apply U; auto. right; auto.
Qed.
Lemma in_range : forall a b i, In i (range a b) <-> a <= i < b.
Proof.
  intros a b i. unfold range. rewrite in_map_iff. split.
  - intros (n & <- & I). apply in_seq in I. lia.
  - intros H. exists (Z.to_nat (i - a)). split; [lia|]. apply in_seq. lia.
Qed.
Lemma in_stripe : forall vertical r a b c fg bg p, In p (stripe vertical r a b c fg bg) <->
  exists i j, a <= i < b /\ 0 <= j < (if vertical then a_w r else a_h r) /\
    p = if vertical then Put (a_x r + j) (a_y r + i) c fg bg else Put (a_x r + i) (a_y r + j) c fg bg.
Proof.
  intros vertical r a b c fg bg p. unfold stripe. rewrite in_flat_map. split.
  - intros (i & I & J). apply in_range in I. apply in_map_iff in J. destruct J as (j & <- & J). apply in_range in J. exists i, j. destruct vertical; auto.
  - intros (i & j & I & J & ->). exists i. rewrite in_range. split; auto. apply in_map_iff. exists j. rewrite in_range. destruct vertical; auto.
Qed.
Lemma shown_stripe : forall vertical r a b c fg bg x y, 0 <= a -> b <= length_of vertical r -> inside r x y ->
  shown (stripe vertical r a b c fg bg) x y = if (a <=? along vertical r x y) && (along vertical r x y <? b) then Some (Put x y c fg bg) else None.
Proof.
  intros vertical r a b c fg bg x y A B [IX IY]. destruct ((a <=? along vertical r x y) && (along vertical r x y <? b)) eqn:E.
  - apply andb_true_iff in E. rewrite Z.leb_le, Z.ltb_lt in E. apply shown_some; auto.
    + apply in_stripe. destruct vertical; cbn [along] in *.
      * exists (y - a_y r), (x - a_x r). repeat split; try lia. f_equal; lia.
      * exists (x - a_x r), (y - a_y r). repeat split; try lia. f_equal; lia.
    + intros q Q X Y. apply in_stripe in Q. destruct Q as (i & j & _ & _ & ->). destruct vertical; cbn in X, Y; f_equal; auto.
  - apply shown_none. intros p P. apply in_stripe in P. destruct P as (i & j & I & J & ->). apply andb_false_iff in E. rewrite Z.leb_gt, Z.ltb_ge in E.
    destruct vertical; cbn [pt_x pt_y along] in *; lia.
Qed.
Lemma glyph_v : forall b, 0 <= b < 8 -> nth (Z.to_nat (7 - b)) vertical_glyphs 0 = if b =? 0 then 32 else 9608 - b.
Proof. intros b H. assert (b = 0 \/ b = 1 \/ b = 2 \/ b = 3 \/ b = 4 \/ b = 5 \/ b = 6 \/ b = 7) as C by lia. repeat (destruct C as [-> |C]; [reflexivity|]). subst. reflexivity. Qed.
Lemma glyph_h : forall b, 0 <= b < 8 -> nth (Z.to_nat (7 - b)) horizontal_glyphs 0 = if b =? 0 then 32 else 9616 - b.
Proof. intros b H. assert (b = 0 \/ b = 1 \/ b = 2 \/ b = 3 \/ b = 4 \/ b = 5 \/ b = 6 \/ b = 7) as C by lia. repeat (destruct C as [-> |C]; [reflexivity|]). subst. reflexivity. Qed.

Lemma paint_thumb_inside : forall vertical r s e p, 0 < a_w r -> 0 < a_h r -> In p (paint_thumb vertical r s e) -> inside r (pt_x p) (pt_y p).
Proof.
  intros vertical r s e p W H I. unfold paint_thumb in I. cbv zeta in I. set (len := if vertical then a_h r else a_w r) in *.
  assert (ST : forall a b c fg bg, 0 <= a -> b <= len -> In p (stripe vertical r a b c fg bg) -> inside r (pt_x p) (pt_y p)).
  { intros a b c fg bg A B J. apply in_stripe in J. destruct J as (i & j & Hi & Hj & ->). unfold len in B. destruct vertical; cbn; unfold inside; cbn; lia. }
  set (si := Z.max s 0 / 8) in *. set (ei := Z.max e 0 / 8) in *.
  assert (L : 0 < len) by (unfold len; destruct vertical; auto).
  apply in_app_or in I. destruct I as [I|I]; [revert I; apply ST; lia|].
  apply in_app_or in I. destruct I as [I|I].
  - destruct ((0 <=? si) && (si <? len)) eqn:E; [|destruct I]. apply andb_true_iff in E. rewrite Z.leb_le, Z.ltb_lt in E.
    destruct (_ =? 32); [destruct I|]. destruct vertical; revert I; apply ST; lia.
  - destruct ((0 <=? ei) && (ei <? len)) eqn:E; [|destruct I]. apply andb_true_iff in E. rewrite Z.leb_le, Z.ltb_lt in E.
    destruct (_ =? 32); [destruct I|]. destruct vertical; revert I; apply ST; lia.
Qed.

Lemma paint_thumb_seen : forall vertical r s e x y k, inside r x y -> 0 <= s -> s + 8 <= e -> 0 <= k < 8 ->
  let pos := 8 * along vertical r x y + k in
  match shown (paint_thumb vertical r s e) x y with
  | Some p => seen vertical p k = Some (if (s <=? pos) && (pos <? e) then Thumb else Track)
  | None => ~ (s <= pos < e)
  end.
Proof.
  intros vertical r s e x y k IN S E K pos. unfold paint_thumb. cbv zeta. rewrite (Z.max_l s 0), (Z.max_l e 0) by lia.
  set (si := s / 8). set (sb := s mod 8). set (ei := e / 8). set (eb := e mod 8).
  assert (DS : s = 8 * si + sb /\ 0 <= sb < 8) by (unfold si, sb; split; [apply Z.div_mod; lia|apply Z.mod_pos_bound; lia]).
  assert (DE : e = 8 * ei + eb /\ 0 <= eb < 8) by (unfold ei, eb; split; [apply Z.div_mod; lia|apply Z.mod_pos_bound; lia]).
  clearbody si sb ei eb. destruct DS as [DS SB]. destruct DE as [DE EB].
  change (if vertical then a_h r else a_w r) with (length_of vertical r). set (len := length_of vertical r).
  set (i := along vertical r x y) in *. assert (IL : 0 <= i < len). { unfold i, len, along, length_of. destruct IN. destruct vertical; lia. }
  assert (LT : si < ei) by lia. rewrite !(Z.max_l _ 0) by lia.
  assert (SH : forall a b c fg bg, 0 <= a -> b <= len -> shown (stripe vertical r a b c fg bg) x y = if (a <=? i) && (i <? b) then Some (Put x y c fg bg) else None).
  { intros. apply shown_stripe; auto. }
  rewrite !shown_app.
  (* the tail *)
  assert (TL : shown (if (0 <=? ei) && (ei <? len) then
       let c := nth (Z.to_nat (7 - eb)) (if vertical then vertical_glyphs else horizontal_glyphs) 0 in
       if c =? 32 then [] else if vertical then stripe vertical r ei (ei + 1) c (Some Track) Thumb else stripe vertical r ei (ei + 1) c (Some Thumb) Track
     else []) x y =
     if (i =? ei) && negb (eb =? 0) then Some (Put x y (if vertical then 9608 - eb else 9616 - eb) (Some (if vertical then Track else Thumb)) (if vertical then Thumb else Track)) else None).
  { destruct ((0 <=? ei) && (ei <? len)) eqn:R.
    - apply andb_true_iff in R. rewrite Z.leb_le, Z.ltb_lt in R. cbv zeta. destruct vertical; rewrite ?glyph_v, ?glyph_h by auto; destruct (Z.eqb_spec eb 0) as [Z0|Z0]; cbn [negb]; rewrite ?andb_false_r, ?andb_true_r.
      + reflexivity.
      + destruct (Z.eqb_spec (9608 - eb) 32); [lia|]. rewrite SH by lia. destruct (Z.eqb_spec i ei); destruct (Z.leb_spec ei i); destruct (Z.ltb_spec i (ei + 1)); try lia; reflexivity.
      + reflexivity.
      + destruct (Z.eqb_spec (9616 - eb) 32); [lia|]. rewrite SH by lia. destruct (Z.eqb_spec i ei); destruct (Z.leb_spec ei i); destruct (Z.ltb_spec i (ei + 1)); try lia; reflexivity.
    - apply andb_false_iff in R. rewrite Z.leb_gt, Z.ltb_ge in R. destruct (Z.eqb_spec i ei); [lia|]. reflexivity. }
  assert (HD : shown (if (0 <=? si) && (si <? len) then
       let c := nth (Z.to_nat (7 - sb)) (if vertical then vertical_glyphs else horizontal_glyphs) 0 in
       if c =? 32 then [] else if vertical then stripe vertical r si (si + 1) c (Some Thumb) Track else stripe vertical r si (si + 1) c (Some Track) Thumb
     else []) x y =
     if (i =? si) && negb (sb =? 0) then Some (Put x y (if vertical then 9608 - sb else 9616 - sb) (Some (if vertical then Thumb else Track)) (if vertical then Track else Thumb)) else None).
  { destruct ((0 <=? si) && (si <? len)) eqn:R.
    - apply andb_true_iff in R. rewrite Z.leb_le, Z.ltb_lt in R. cbv zeta. destruct vertical; rewrite ?glyph_v, ?glyph_h by auto; destruct (Z.eqb_spec sb 0) as [Z0|Z0]; cbn [negb]; rewrite ?andb_false_r, ?andb_true_r.
      + reflexivity.
      + destruct (Z.eqb_spec (9608 - sb) 32); [lia|]. rewrite SH by lia. destruct (Z.eqb_spec i si); destruct (Z.leb_spec si i); destruct (Z.ltb_spec i (si + 1)); try lia; reflexivity.
      + reflexivity.
      + destruct (Z.eqb_spec (9616 - sb) 32); [lia|]. rewrite SH by lia. destruct (Z.eqb_spec i si); destruct (Z.leb_spec si i); destruct (Z.ltb_spec i (si + 1)); try lia; reflexivity.
    - apply andb_false_iff in R. rewrite Z.leb_gt, Z.ltb_ge in R. destruct (Z.eqb_spec i si); [lia|]. reflexivity. }
  cbv zeta in TL, HD. rewrite TL, HD. clear TL HD. rewrite (SH (Z.min si len) (Z.min ei len)) by lia.
  unfold seen, inked. destruct (Z.eqb_spec i ei) as [I1|I1]; cbn [andb].
  - destruct (Z.eqb_spec eb 0) as [Z0|Z0]; cbn [negb].
    + destruct (Z.eqb_spec i si); [lia|]. cbn [andb]. destruct (Z.leb_spec (Z.min si len) i); destruct (Z.ltb_spec i (Z.min ei len)); cbn [andb]; try lia; unfold pos; lia.
    + cbn [pt_char pt_fg pt_bg]. assert (T : (s <=? pos) = true) by (apply Z.leb_le; unfold pos; lia). rewrite T. cbn [andb].
      destruct vertical.
      * destruct (Z.leb_spec 9601 (9608 - eb)); [|lia]. destruct (Z.leb_spec (9608 - eb) 9608); [|lia]. cbn [andb].
        destruct (Z.leb_spec (8 - (9608 - eb - 9600)) k); destruct (Z.ltb_spec pos e); try reflexivity; unfold pos in *; lia.
      * destruct (Z.leb_spec 9609 (9616 - eb)); [|lia]. destruct (Z.leb_spec (9616 - eb) 9615); [|lia]. cbn [andb].
        destruct (Z.ltb_spec k (9616 - (9616 - eb))); destruct (Z.ltb_spec pos e); try reflexivity; unfold pos in *; lia.
  - destruct (Z.eqb_spec i si) as [I2|I2]; cbn [andb].
    + destruct (Z.eqb_spec sb 0) as [Z0|Z0]; cbn [negb].
      * destruct (Z.leb_spec (Z.min si len) i); destruct (Z.ltb_spec i (Z.min ei len)); cbn [andb]; try lia. cbn [pt_char pt_bg pt_fg].
        assert (T : (s <=? pos) && (pos <? e) = true) by (rewrite andb_true_iff, Z.leb_le, Z.ltb_lt; unfold pos; lia). rewrite T. destruct vertical; reflexivity.
      * cbn [pt_char pt_fg pt_bg]. assert (T : (pos <? e) = true) by (apply Z.ltb_lt; unfold pos; lia). rewrite T, andb_true_r.
        destruct vertical.
        { destruct (Z.leb_spec 9601 (9608 - sb)); [|lia]. destruct (Z.leb_spec (9608 - sb) 9608); [|lia]. cbn [andb].
          destruct (Z.leb_spec (8 - (9608 - sb - 9600)) k); destruct (Z.leb_spec s pos); try reflexivity; unfold pos in *; lia. }
        { destruct (Z.leb_spec 9609 (9616 - sb)); [|lia]. destruct (Z.leb_spec (9616 - sb) 9615); [|lia]. cbn [andb].
          destruct (Z.ltb_spec k (9616 - (9616 - sb))); destruct (Z.leb_spec s pos); try reflexivity; unfold pos in *; lia. }
    + destruct (Z.leb_spec (Z.min si len) i); destruct (Z.ltb_spec i (Z.min ei len)); cbn [andb]; try (unfold pos; lia). cbn [pt_char pt_bg pt_fg].
      assert (T : (s <=? pos) && (pos <? e) = true) by (rewrite andb_true_iff, Z.leb_le, Z.ltb_lt; unfold pos; lia). rewrite T. destruct vertical; reflexivity.
Qed.

(** *** The thumb *)
Section Thumb.
Variable rnd : Q -> Q.
Hypothesis R : rounding rnd.
Local Open Scope Q_scope.
Lemma rnd_ext : forall a b, a == b -> rnd a == rnd b.
Proof. intros a b E. apply Qle_antisym; apply (rnd_mono rnd R); rewrite E; lra. Qed.
Lemma trunc_floor : forall q, 0 <= q -> trunc q = Qfloor q.
Proof. intros q H. unfold trunc. apply Qle_bool_iff in H. rewrite H. reflexivity. Qed.
Lemma floor_nonneg : forall q, 0 <= q -> (0 <= Qfloor q)%Z.
Proof. intros q H. apply Qfloor_resp_le in H. exact H. Qed.
Lemma qmax_ge : forall a b, a <= qmax a b /\ b <= qmax a b.
Proof. intros a b. unfold qmax. destruct (Qle_bool a b) eqn:E; [apply Qle_bool_iff in E; lra|]. assert (b < a) by (apply Qnot_le_lt; intros X; apply Qle_bool_iff in X; congruence). lra. Qed.
Lemma qmax_lub : forall a b c, a <= c -> b <= c -> qmax a b <= c.
Proof. intros a b c. unfold qmax. destruct (Qle_bool a b); auto. Qed.
Lemma inj_le : forall a b, (a <= b)%Z -> inject_Z a <= inject_Z b. Proof. intros a b H. rewrite <- Zle_Qle. auto. Qed.
Lemma ceil_lub : forall q z, q <= inject_Z z -> (Qceiling q <= z)%Z.
Proof. intros q z H. apply Qceiling_resp_le in H. rewrite Qceiling_Z in H. exact H. Qed.
Lemma ceil_ge : forall q z, inject_Z z <= q -> (z <= Qceiling q)%Z.
Proof. intros q z H. apply Qceiling_resp_le in H. rewrite Qceiling_Z in H. exact H. Qed.
Lemma floor_lub : forall q z, q <= inject_Z z -> (Qfloor q <= z)%Z.
Proof. intros q z H. apply Qfloor_resp_le in H. rewrite Qfloor_Z in H. exact H. Qed.
Lemma rnd_le_int : forall q z, (Z.abs z <= 2 ^ 24)%Z -> q <= inject_Z z -> rnd q <= inject_Z z.
Proof. intros q z A H. apply (rnd_mono rnd R) in H. rewrite (rnd_int rnd R z A) in H. exact H. Qed.
Lemma rnd_ge_int : forall q z, (Z.abs z <= 2 ^ 24)%Z -> inject_Z z <= q -> inject_Z z <= rnd q.
Proof. intros q z A H. apply (rnd_mono rnd R) in H. rewrite (rnd_int rnd R z A) in H. exact H. Qed.
Lemma rnd_nonneg : forall q, 0 <= q -> 0 <= rnd q.
Proof. intros q H. change 0 with (inject_Z 0) in *. apply rnd_ge_int; auto. cbn. lia. Qed.
Lemma rnd_le_one : forall q, q <= 1 -> rnd q <= 1.
Proof. intros q H. change 1 with (inject_Z 1) in *. apply rnd_le_int; auto. cbn. lia. Qed.
Lemma rnd_posit : forall q, 0 < q -> 0 < rnd q.
Proof. intros q H. pose proof (rnd_rel rnd R q H) as P. change (1 # 2 ^ 24) with (1 # 16777216) in P. lra. Qed.

(** Whole sizes that fit the mantissa, as every caller passes. *)
Variables T v w : Z.
Hypothesis HT : (1 <= T <= 2 ^ 24)%Z.
Hypothesis Hw : (0 < w < v)%Z.
Hypothesis Hv : (v <= 2 ^ 24)%Z.
Notation th := (thumb_size rnd T (inject_Z v) (inject_Z w)).
Lemma thumb_range : 1 <= th <= inject_Z T.
Proof.
  unfold thumb_size. split; [apply qmax_ge|]. apply qmax_lub; [|change 1 with (inject_Z 1); apply inj_le; lia].
  assert (PT : 0 < inject_Z T) by (apply inj_pos; lia). assert (PV : 0 < inject_Z v) by (apply inj_pos; lia).
  apply rnd_le_int; [lia|]. set (d := rnd (inject_Z v / inject_Z T)).
  assert (Pd0 : 0 < inject_Z v / inject_Z T). { apply Qlt_shift_div_l; auto; lra. }
  assert (D : (1 - (1 # 2 ^ 24)) * (inject_Z v / inject_Z T) <= d) by (apply (rnd_rel rnd R); auto).
  change (1 # 2 ^ 24) with (1 # 16777216) in D. assert (Pd : 0 < d) by lra.
  apply Qle_shift_div_r; auto.
  assert (E : inject_Z T * ((1 - (1 # 16777216)) * (inject_Z v / inject_Z T)) == (1 - (1 # 16777216)) * inject_Z v) by (field; lra).
  assert (F : inject_Z T * ((1 - (1 # 16777216)) * (inject_Z v / inject_Z T)) <= inject_Z T * d) by (apply Qmult_le_l; auto).
  assert (W : inject_Z w <= inject_Z v - 1). { change 1 with (inject_Z 1). unfold Qminus. rewrite <- inject_Z_opp, <- inject_Z_plus. apply inj_le. lia. }
  assert (V : inject_Z v <= 16777216). { change 16777216 with (inject_Z 16777216). apply inj_le. lia. }
  lra.
Qed.
Lemma track_rest : 0 <= rnd (inject_Z T - th).
Proof. apply rnd_nonneg. pose proof thumb_range. lra. Qed.
Lemma vw_exact : rnd (inject_Z v - inject_Z w) == inject_Z (v - w).
Proof. unfold Z.sub, Qminus. rewrite <- inject_Z_opp, <- inject_Z_plus. apply (rnd_int rnd R). lia. Qed.
Lemma ratio_mono : forall p q, (0 <= p <= q)%Z -> (q <= v - w)%Z ->
  0 <= rnd (inject_Z p / rnd (inject_Z v - inject_Z w)) <= rnd (inject_Z q / rnd (inject_Z v - inject_Z w)) /\ rnd (inject_Z q / rnd (inject_Z v - inject_Z w)) <= 1.
Proof.
  intros p q H Q. set (d := rnd (inject_Z v - inject_Z w)). assert (D : d == inject_Z (v - w)) by apply vw_exact. assert (P : 0 < d) by (rewrite D; apply inj_pos; lia).
  split; [split|].
  - apply rnd_nonneg. apply Qle_shift_div_l; auto. rewrite Qmult_0_l. change 0 with (inject_Z 0). apply inj_le. lia.
  - apply (rnd_mono rnd R). unfold Qdiv. apply Qmult_le_compat_r; [apply inj_le; lia|]. apply Qlt_le_weak, Qinv_lt_0_compat; auto.
  - apply rnd_le_one. apply Qle_shift_div_r; auto. rewrite Qmult_1_l, D. apply inj_le. lia.
Qed.
Lemma position_mono : forall p q, (0 <= p <= q)%Z -> (q <= v - w)%Z ->
  0 <= thumb_position rnd T (inject_Z v) (inject_Z w) (inject_Z p) <= thumb_position rnd T (inject_Z v) (inject_Z w) (inject_Z q) /\
  thumb_position rnd T (inject_Z v) (inject_Z w) (inject_Z q) <= inject_Z T - inject_Z (Qfloor th).
Proof.
  intros p q H Q. destruct (ratio_mono p q H Q) as [[A B] C]. pose proof track_rest as TR. unfold thumb_position. fold th in *.
  set (a := rnd (inject_Z T - th)) in *. set (x := rnd (inject_Z p / _)) in *. set (y := rnd (inject_Z q / _)) in *.
  assert (FT : inject_Z (Qfloor th) <= th) by apply Qfloor_le. pose proof thumb_range as [T1 T2].
  assert (AL : a <= inject_Z T - inject_Z (Qfloor th)).
  { unfold Qminus. rewrite <- inject_Z_opp, <- inject_Z_plus. apply rnd_le_int.
    - assert (1 <= Qfloor th)%Z by (apply Qfloor_resp_le in T1; exact T1). assert (Qfloor th <= T)%Z by (apply floor_lub; auto). lia.
    - rewrite inject_Z_plus, inject_Z_opp. lra. }
  split; [split|].
  - apply rnd_nonneg. nra.
  - apply (rnd_mono rnd R). nra.
  - revert AL. unfold Qminus. rewrite <- inject_Z_opp, <- inject_Z_plus. intros AL. apply rnd_le_int.
    + assert (1 <= Qfloor th)%Z by (apply Qfloor_resp_le in T1; exact T1). assert (Qfloor th <= T)%Z by (apply floor_lub; auto). lia.
    + nra.
Qed.
Lemma bounds_unfold : v <> T -> forall p, thumb_bounds rnd T (inject_Z v) (inject_Z w) (inject_Z p) =
  let s := trunc (thumb_position rnd T (inject_Z v) (inject_Z w) (inject_Z p)) in (s, (s + Qceiling th)%Z).
Proof.
  intros N p. unfold thumb_bounds.
  assert (Hm : Qle_bool (inject_Z v) (inject_Z w) = false). { apply not_true_iff_false. intros X. apply Qle_bool_iff in X. rewrite <- Zle_Qle in X. lia. }
  rewrite Hm. assert (H0 : Qle_bool (inject_Z w) 0 = false). { apply not_true_iff_false. intros X. apply Qle_bool_iff in X. change 0 with (inject_Z 0) in X. rewrite <- Zle_Qle in X. lia. }
  assert (H1 : Qle_bool (inject_Z v) 0 = false). { apply not_true_iff_false. intros X. apply Qle_bool_iff in X. change 0 with (inject_Z 0) in X. rewrite <- Zle_Qle in X. lia. }
  assert (H2 : (T =? 0)%Z = false) by (apply Z.eqb_neq; lia).
  assert (H3 : Qeq_bool (inject_Z v) (inject_Z T) = false). { apply not_true_iff_false. intros X. apply Qeq_bool_iff in X. rewrite inject_Z_injective in X. auto. }
  rewrite H0, H1, H2, H3. reflexivity.
Qed.
End Thumb.

(** Exact arithmetic. *)
Section Exact.
Variables T v w : Z.
Hypothesis HT : 1 <= T.
Hypothesis Hw : 0 < w < v.
Notation ex := (fun q : Q => q).
Notation th := (thumb_size ex T (inject_Z v) (inject_Z w)).
Local Open Scope Q_scope.
Lemma exact_range : 1 <= th <= inject_Z T.
Proof.
  unfold thumb_size. split; [apply qmax_ge|]. apply qmax_lub; [|change 1 with (inject_Z 1); apply inj_le; lia].
  assert (PT : 0 < inject_Z T) by (apply inj_pos; lia). assert (PV : 0 < inject_Z v) by (apply inj_pos; lia).
  apply Qle_shift_div_r; [apply Qlt_shift_div_l; auto; lra|]. assert (E : inject_Z T * (inject_Z v / inject_Z T) == inject_Z v) by (field; lra). rewrite E. apply inj_le. lia.
Qed.
Lemma exact_position : forall p q, (0 <= p <= q)%Z -> (q <= v - w)%Z ->
  0 <= thumb_position ex T (inject_Z v) (inject_Z w) (inject_Z p) <= thumb_position ex T (inject_Z v) (inject_Z w) (inject_Z q) /\
  thumb_position ex T (inject_Z v) (inject_Z w) (inject_Z q) <= inject_Z T - th.
Proof.
  intros p q H Q. unfold thumb_position. pose proof exact_range as [A B]. fold th in *. set (a := inject_Z T - th) in *.
  assert (VW : inject_Z v - inject_Z w == inject_Z (v - w)). { unfold Z.sub, Qminus. rewrite inject_Z_plus, inject_Z_opp. reflexivity. }
  assert (P : 0 < inject_Z v - inject_Z w) by (rewrite VW; apply inj_pos; lia).
  assert (X : 0 <= inject_Z p / (inject_Z v - inject_Z w)). { apply Qle_shift_div_l; auto. rewrite Qmult_0_l. change 0 with (inject_Z 0). apply inj_le. lia. }
  assert (Y : inject_Z p / (inject_Z v - inject_Z w) <= inject_Z q / (inject_Z v - inject_Z w)). { unfold Qdiv. apply Qmult_le_compat_r; [apply inj_le; lia|]. apply Qlt_le_weak, Qinv_lt_0_compat; auto. }
  assert (Z : inject_Z q / (inject_Z v - inject_Z w) <= 1). { apply Qle_shift_div_r; auto. rewrite Qmult_1_l, VW. apply inj_le. lia. }
  assert (Pa : 0 <= a) by (unfold a; lra). repeat split; nra.
Qed.
Lemma exact_end : thumb_position ex T (inject_Z v) (inject_Z w) (inject_Z (v - w)) == inject_Z T - th.
Proof.
  unfold thumb_position. fold th. assert (VW : inject_Z v - inject_Z w == inject_Z (v - w)). { unfold Z.sub, Qminus. rewrite inject_Z_plus, inject_Z_opp. reflexivity. }
  assert (P : 0 < inject_Z (v - w)) by (apply inj_pos; lia). rewrite VW. field. lra.
Qed.
Lemma floor_sub_ceil : forall z q, Qfloor (inject_Z z - q) = (z - Qceiling q)%Z.
Proof.
  intros z q. pose proof (Qfloor_le (inject_Z z - q)) as A. pose proof (Qlt_floor (inject_Z z - q)) as B. pose proof (Qle_ceiling q) as C. pose proof (Qceiling_lt q) as D.
  rewrite inject_Z_plus in B. change (inject_Z 1) with 1 in B. unfold Z.sub in D. rewrite inject_Z_plus in D. change (inject_Z (- (1))) with (-1#1) in D.
  set (f := Qfloor (inject_Z z - q)) in *. set (c := Qceiling q) in *.
  assert (X : inject_Z (f + c) < inject_Z (z + 1)) by (rewrite !inject_Z_plus; change (inject_Z 1) with 1; lra). rewrite <- Zlt_Qlt in X.
  assert (Y : inject_Z z < inject_Z (f + c + 1)) by (rewrite !inject_Z_plus; change (inject_Z 1) with 1; lra). rewrite <- Zlt_Qlt in Y. lia.
Qed.
End Exact.
