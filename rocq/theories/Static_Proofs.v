(** Proofs about static text. *)
From Coq Require Import ZArith List Arith Bool Lia.
From Verif Require Import Strip_Model Strip_Spec Strip_Proofs Row_Model Row_Spec Row_Proofs Row_Props Bars_Model Bars_Spec Static_Model Static_Spec.
Import ListNotations.
Open Scope nat_scope.

Section Align.
Context {G St Mt : Type}.
Variable gw : G -> nat.
Variable me : Mt.
Variables space ellipsis dash : G.
Variable is_space : G -> bool.
Variable unstyled : St -> St.
Hypothesis Wsp : gw space = 1.
Hypothesis Wel : gw ellipsis = 1.
Hypothesis Wda : gw dash = 1.
Hypothesis Isp : forall g, is_space g = true <-> g = space.
Notation strip := (@strip G St Mt).
Notation cell := (@cell G St Mt).
Notation look := (@look G St Mt).
Notation wline := (@wline G St Mt).
Notation blank := (@strip_blank G St Mt me space).
Notation padc st := ((space, st, me) : cell).

Lemma text_align_plain : forall (s : strip) a n st, plain gw s ->
  plain gw (text_align gw me space s a n st) /\
  let l := firstn n (cells s) in
  cells (text_align gw me space s a n st) = repeat (padc st) (left_pad a (n - length l)) ++ l ++ repeat (padc st) (n - length l - left_pad a (n - length l)) /\
  length (cells (text_align gw me space s a n st)) = n.
Proof.
  intros s a n st P. pose proof (plain_len gw s P) as L. destruct P as [Ok Na].
  assert (K : left_pad a (n - length (cells s)) <= n - length (cells s)) by (unfold left_pad; destruct a; try lia; apply Nat.div_le_upper_bound; lia).
  unfold text_align. destruct (Nat.leb_spec n (st_len s)) as [H|H].
  - destruct (crop_plain gw s 0 n (conj Ok Na)) as [P C]. split; [exact P|]. cbv zeta. rewrite C, Nat.sub_0_r. cbn [skipn].
    assert (F : length (firstn n (cells s)) = n) by (rewrite firstn_length; lia). rewrite F, Nat.sub_diag.
    assert (Z : left_pad a 0 = 0) by (destruct a; reflexivity). rewrite Z. cbn [repeat app]. rewrite app_nil_r. split; reflexivity.
  - pose proof (text_align_cells gw me space Wsp s a n st Ok H) as C. cbv zeta in C.
    pose proof (text_align_ok gw me space Wsp s a n st Ok) as O.
    unfold text_align in C, O. destruct (Nat.leb_spec n (st_len s)) as [H'|_]; [lia|].
    assert (F : firstn n (cells s) = cells s) by (apply firstn_all2; lia).
    split; [split; [exact O|]|].
    + unfold plain. rewrite C. apply Forall_app. split; [|apply Forall_app; split; [exact Na|]]; apply Forall_forall; intros x I; apply repeat_spec in I; subst x; exact Wsp.
    + cbv zeta. rewrite F, <- L. split; [exact C|]. rewrite C, !app_length, !repeat_length. rewrite L in *. lia.
Qed.

Lemma left_pad_across : forall a n w, n <= w -> across a w n (left_pad a (w - n)) (w - n - left_pad a (w - n)).
Proof.
  intros a n w L. unfold across, left_pad. destruct a; lia.
Qed.
Lemma stretch_narrow : forall e (l : list cell) i, all_narrow gw l -> all_narrow gw (stretch is_space e i l).
Proof.
  intros e. induction l as [|c l IH]; intros i N; cbn [stretch]; [constructor|]. inversion N as [|? ? Hc Hl]; subst.
  destruct (is_space (fst (fst c))).
  - apply narrow_app. split; [|apply IH; exact Hl]. apply Forall_forall. intros x I. apply repeat_spec in I. subst x. exact Hc.
  - constructor; [exact Hc|apply IH; exact Hl].
Qed.

(** One line set in [lw] cells. *)
Lemma set_line : forall (t : talign) (s : strip) last lw st, plain gw s ->
  let m := match t, last with TJustify, false => justify gw me space is_space s lw st | _, _ => text_align gw me space s (line_align t) lw st end in
  plain gw m /\ set_in is_space t last lw (padc st) (firstn lw (cells s)) (cells m) /\ length (cells m) = lw.
Proof.
  intros t s last lw st P m.
  assert (J : t = TJustify /\ last = false \/ m = text_align gw me space s (line_align t) lw st /\ ~ (t = TJustify /\ last = false)).
  { subst m. destruct t, last; try (right; split; [reflexivity|intros [? ?]; discriminate]). left. auto. }
  pose proof (plain_len gw s P) as L.
  destruct J as [[Et El]|[Em N]].
  - subst t last. subst m. cbv iota. unfold set_in, justify.
    destruct (Nat.leb_spec lw (st_len s)) as [H|H].
    + destruct (crop_plain gw s 0 lw P) as [Pc C]. rewrite Nat.sub_0_r in C. cbn [skipn] in C. rewrite C.
      assert (F : length (firstn lw (cells s)) = lw) by (rewrite firstn_length; lia).
      split; [exact Pc|]. split; [|exact F]. right. rewrite F, Nat.sub_diag. cbn [repeat]. rewrite app_nil_r. split; [right; lia|reflexivity].
    + assert (F : firstn lw (cells s) = cells s) by (apply firstn_all2; lia). rewrite F, gap_count_spaces.
      destruct (Nat.eqb_spec (spaces is_space (cells s)) 0) as [Z|Z].
      * destruct (text_align_plain s HLeft lw st P) as [Pt [C K]]. rewrite F in C. split; [exact Pt|]. split; [|exact K].
        right. split; [left; exact Z|]. rewrite C. cbn [left_pad repeat app]. rewrite Nat.sub_0_r. reflexivity.
      * destruct (justify_cells gw me space Wsp is_space Isp s lw st (proj1 P) H) as (C & O & K); [lia|].
        unfold justify in C, O, K. destruct (Nat.leb_spec lw (st_len s)) as [?|_]; [lia|]. rewrite gap_count_spaces in C, O, K.
        destruct (Nat.eqb_spec (spaces is_space (cells s)) 0) as [?|_]; [lia|]. cbv zeta in *.
        match goal with |- plain _ ?r /\ _ => assert (Pr : plain gw r) by (split; [exact O|rewrite C; apply stretch_narrow; apply P]) end.
        split; [exact Pr|]. split; [|rewrite <- (plain_len gw _ Pr); exact K].
        left. split; [lia|]. split; [lia|]. rewrite <- L. exact C.
  - rewrite Em. destruct (text_align_plain s (line_align t) lw st P) as [Pt [C K]]. split; [exact Pt|]. split; [|exact K].
    assert (Q : exists a b, across (side t) lw (length (firstn lw (cells s))) a b /\
      cells (text_align gw me space s (line_align t) lw st) = repeat (padc st) a ++ firstn lw (cells s) ++ repeat (padc st) b).
    { eexists. eexists. split; [|exact C]. replace (line_align t) with (side t) by (destruct t; reflexivity). apply left_pad_across. rewrite firstn_length. lia. }
    unfold set_in. destruct t, last; try exact Q. exfalso. apply N. auto.
Qed.

Lemma h_offset_across : forall h w n, n <= w -> across h w n (h_offset h w n) (w - n - h_offset h w n).
Proof.
  intros h w n L. unfold across, h_offset. destruct h; lia.
Qed.

Lemma align_line_plain : forall (k : look) w block st (l : wline), plain gw (w_strip l) -> block <= w -> length (cells (w_strip l)) <= block \/ block = w ->
  let r := align_line gw me space is_space k w block st l in
  plain gw r /\ length (cells r) = w /\ in_block is_space k w block (padc st) (w_end l) (cells (w_strip l)) (cells r).
Proof.
  intros k w block st l P Bw Lb r. subst r. unfold align_line. cbv zeta.
  set (lw := match k_h k, k_v k with HLeft, VTop => w | _, _ => block end).
  destruct (set_line (k_t k) (w_strip l) (w_end l) lw st P) as (Pm & S & K).
  set (m := match k_t k, w_end l with TJustify, false => _ | _, _ => _ end) in *. cbv zeta in *.
  assert (Lw : lw <= w) by (subst lw; destruct (k_h k), (k_v k); lia).
  pose proof (h_offset_across (k_h k) w block Bw) as [Ho Hs].
  set (off := h_offset (k_h k) w block) in *.
  assert (Ow : off + lw <= w) by (subst lw off; unfold h_offset in *; destruct (k_h k), (k_v k); lia).
  assert (Pp : let p := if 0 <? off then join [blank off st; m] else m in plain gw p /\ cells p = repeat (padc st) off ++ cells m).
  { cbv zeta. destruct (Nat.ltb_spec 0 off) as [H|H].
    - destruct (blank_plain gw me space ellipsis dash Wsp Wel Wda off st) as [Pb Cb].
      assert (C : cells (join [blank off st; m]) = repeat (padc st) off ++ cells m) by (rewrite join_cells; cbn [flat_map]; rewrite Cb, app_nil_r; reflexivity).
      split; [|exact C]. split; [apply join_ok; repeat constructor; try apply Pb; apply Pm|]. rewrite C. apply narrow_app. split; [|apply Pm].
      destruct Pb as [_ Nb]. rewrite Cb in Nb. exact Nb.
    - replace off with 0 by lia. cbn [repeat app]. split; [exact Pm|reflexivity]. }
  cbv zeta in Pp. destruct Pp as [Pp Cp].
  destruct (adjust_plain gw me space ellipsis dash Wsp Wel Wda (if 0 <? off then join [blank off st; m] else m) w st Pp) as [Pa Ca].
  split; [exact Pa|]. rewrite Ca, Cp. split; [apply fit_length|].
  unfold fit. rewrite app_length, repeat_length, K.
  rewrite firstn_all2 by (rewrite app_length, repeat_length, K; exact Ow). rewrite <- app_assoc.
  unfold in_block. subst lw.
  assert (Fb : firstn block (cells (w_strip l)) = firstn w (cells (w_strip l))).
  { destruct Lb as [Lb | ->]; [|reflexivity]. rewrite !firstn_all2 by lia. reflexivity. }
  destruct (k_h k), (k_v k);
    try (exists off, (w - (off + block)), (cells m); split; [unfold across; repeat split; lia|]; split; [reflexivity|]; rewrite <- Fb; exact S).
  assert (Z : off = 0) by (subst off; reflexivity). rewrite Z. cbn [repeat app]. rewrite Nat.add_0_l, Nat.sub_diag. cbn [repeat]. rewrite app_nil_r. exact S.
Qed.

Lemma max_len_widest : forall (ls : list wline), Forall (fun l => plain gw (w_strip l)) ls ->
  max_line_len ls = widest (map (fun l => (cells (w_strip l), w_end l)) ls).
Proof.
  induction 1 as [|l ls P _ IH]; [reflexivity|]. cbn [max_line_len fold_right map widest fst]. rewrite (plain_len gw _ P).
  change (Nat.max (length (cells (w_strip l))) (max_line_len ls) = Nat.max (length (cells (w_strip l))) (widest (map (fun l => (cells (w_strip l), w_end l)) ls))).
  rewrite IH. reflexivity.
Qed.
Lemma widest_ge : forall (ls : list (list cell * bool)) l, In l ls -> length (fst l) <= widest ls.
Proof.
  induction ls as [|x ls IH]; intros l I; [destruct I|]. cbn [widest fold_right]. destruct I as [->|I]; [lia|]. specialize (IH l I). unfold widest in IH. lia.
Qed.

Lemma align_content_shows : forall (k : look) (ls : list wline) w h, plain_lines gw ls -> 0 < w -> 0 < h ->
  let rows := align_content gw me space is_space unstyled k ls w h in
  Forall (plain gw) rows /\ Forall (fun r => length (cells r) = w) rows /\ length rows = h /\
  shows_text is_space k w h (padc (Some (unstyled (k_style k)))) (map (fun l => (cells (w_strip l), w_end l)) ls) (map (@cells G St Mt) rows).
Proof.
  intros k ls w h P Hw Hh rows. subst rows. unfold align_content.
  destruct (Nat.eqb_spec w 0) as [?|_]; [lia|]. destruct (Nat.eqb_spec h 0) as [?|_]; [lia|]. cbn [orb].
  set (pad := Some (unstyled (k_style k))). set (vo := v_offset (k_v k) h (length ls)).
  rewrite (max_len_widest ls P). set (tl := map (fun l => (cells (w_strip l), w_end l)) ls). set (block := Nat.min w (widest tl)).
  set (body := map (align_line gw me space is_space k w block pad) (firstn (h - vo) ls)).
  destruct (blank_plain gw me space ellipsis dash Wsp Wel Wda w pad) as [Pb Cb].
  assert (Lb : length body = Nat.min (h - vo) (length ls)) by (subst body; rewrite map_length, firstn_length; reflexivity).
  assert (Vo : vo <= h - length ls) by (subst vo; unfold v_offset; destruct (k_v k); lia).
  rewrite app_length, repeat_length.
  assert (Fl : firstn (h - vo) ls = firstn h ls).
  { destruct (le_lt_dec (length ls) h) as [Q|Q]; [rewrite !firstn_all2 by lia; reflexivity|]. replace (h - vo) with h by lia. reflexivity. }
  assert (AL : forall l, In l ls -> let r := align_line gw me space is_space k w block pad l in
    plain gw r /\ length (cells r) = w /\ in_block is_space k w block (padc pad) (w_end l) (cells (w_strip l)) (cells r)).
  { intros l I. apply align_line_plain.
    - unfold plain_lines in P. rewrite Forall_forall in P. apply P. exact I.
    - subst block. lia.
    - assert (Q : length (cells (w_strip l)) <= widest tl).
      { apply (widest_ge tl (cells (w_strip l), w_end l)). subst tl. apply in_map_iff. exists l. auto. }
      subst block. lia. }
  assert (Ib : forall r, In r body -> exists l, In l ls /\ r = align_line gw me space is_space k w block pad l).
  { intros r I. subst body. apply in_map_iff in I. destruct I as (l & <- & I). exists l. split; [|reflexivity].
    rewrite <- (firstn_skipn (h - vo) ls). apply in_or_app. left. exact I. }
  assert (Each : forall r, In r (repeat (blank w pad) vo ++ body ++ repeat (blank w pad) (h - (vo + length body))) -> plain gw r /\ length (cells r) = w).
  { intros r I. apply in_app_or in I. destruct I as [I|I]; [|apply in_app_or in I; destruct I as [I|I]].
    - apply repeat_spec in I. subst r. split; [exact Pb|]. rewrite Cb. apply repeat_length.
    - destruct (Ib r I) as (l & Il & ->). destruct (AL l Il) as (A1 & A2 & _). auto.
    - apply repeat_spec in I. subst r. split; [exact Pb|]. rewrite Cb. apply repeat_length. }
  split; [apply Forall_forall; intros r I; apply Each; exact I|].
  split; [apply Forall_forall; intros r I; apply Each; exact I|].
  split; [rewrite !app_length, !repeat_length; lia|].
  exists vo, (h - (vo + length body)), (map (@cells G St Mt) body). rewrite map_length.
  split.
  { unfold down. split; [lia|]. rewrite Lb. subst vo. unfold v_offset in *. destruct (k_v k); lia. }
  split.
  { rewrite !map_app, !map_repeat_, Cb. reflexivity. }
  change (Nat.min w (widest tl)) with block. subst body tl. rewrite Fl. rewrite firstn_map.
  assert (Sub : forall l, In l (firstn h ls) -> In l ls) by (intros l I; rewrite <- (firstn_skipn h ls); apply in_or_app; left; exact I).
  revert Sub. generalize (firstn h ls) as q. induction q as [|l q IH]; intros Sub; cbn [map]; constructor.
  - cbn [fst snd]. destruct (AL l (Sub l (or_introl eq_refl))) as (_ & A2 & A3). split; [exact A2|exact A3].
  - apply IH. intros l' I. apply Sub. right. exact I.
Qed.

Lemma lines_for_plain : forall (k : look) wrap w, 0 < w ->
  let ls := wrap (Nat.max (w - k_line_pad k * 2) 1) in plain_lines gw ls ->
  plain_lines gw (lines_for me space k wrap w) /\
  map (fun l => (cells (w_strip l), w_end l)) (lines_for me space k wrap w) = text_lines (padc (Some (k_style k))) k ls.
Proof.
  intros k wrap w Hw ls P. subst ls. unfold lines_for. destruct (Nat.ltb_spec 0 w) as [_|?]; [|lia].
  unfold text_lines. revert P. generalize (wrap (Nat.max (w - k_line_pad k * 2) 1)) as ls. induction ls as [|l ls IH]; intros P; [split; [constructor|reflexivity]|].
  inversion P as [|? ? Pl Pr]; subst. destruct (IH Pr) as [I1 I2]. cbn [map].
  destruct (blank_plain gw me space ellipsis dash Wsp Wel Wda (k_line_pad k) (Some (k_style k))) as [Pb Cb].
  assert (Q : plain gw (w_strip (pad_line me space (k_line_pad k) (k_style k) l)) /\
    cells (w_strip (pad_line me space (k_line_pad k) (k_style k) l)) = repeat (padc (Some (k_style k))) (k_line_pad k) ++ cells (w_strip l) ++ repeat (padc (Some (k_style k))) (k_line_pad k) /\
    w_end (pad_line me space (k_line_pad k) (k_style k) l) = w_end l).
  { unfold pad_line. destruct (Nat.ltb_spec 0 (k_line_pad k)) as [H|H]; cbn [w_strip w_end].
    - assert (C : cells (join [blank (k_line_pad k) (Some (k_style k)); w_strip l; blank (k_line_pad k) (Some (k_style k))]) =
        repeat (padc (Some (k_style k))) (k_line_pad k) ++ cells (w_strip l) ++ repeat (padc (Some (k_style k))) (k_line_pad k)).
      { rewrite join_cells. cbn [flat_map]. rewrite Cb, app_nil_r. reflexivity. }
      split; [|auto]. split; [apply join_ok; repeat constructor; try apply Pb; apply Pl|]. rewrite C.
      destruct Pb as [_ Nb]. rewrite Cb in Nb. apply narrow_app. split; [exact Nb|]. apply narrow_app. split; [apply Pl|exact Nb].
    - replace (k_line_pad k) with 0 by lia. cbn [repeat app]. rewrite app_nil_r. auto. }
  destruct Q as (Q1 & Q2 & Q3). split; [constructor; assumption|]. rewrite Q2, Q3. f_equal. exact I2.
Qed.
End Align.

Lemma inner_room : forall (G St Mt : Type) (k : @look G St Mt) w h, inner_size (cache_of k) w h = (room_w k w, room_h k h).
Proof.
  intros. unfold inner_size, room_w, room_h, border_left, border_right, border_top, border_bottom, pl, pr, cache_of, cache_new, visible_edges.
  cbn [rc_border rc_padding e_top e_right e_bottom e_left]. f_equal; lia.
Qed.

Section Draw.
Context {G St Mt : Type}.
Variable gw : G -> nat.
Variable me : Mt.
Variables space ellipsis dash : G.
Variable is_space : G -> bool.
Variable sd : St.
Variable unstyled : St -> St.
Hypothesis Wsp : gw space = 1.
Hypothesis Wel : gw ellipsis = 1.
Hypothesis Wda : gw dash = 1.
Hypothesis Isp : forall g, is_space g = true <-> g = space.
Notation strip := (@strip G St Mt).
Notation cell := (@cell G St Mt).
Notation look := (@look G St Mt).
Notation wline := (@wline G St Mt).
Notation padc st := ((space, st, me) : cell).
Notation draw := (draw gw me space ellipsis dash is_space sd unstyled).
Notation aligned := (aligned gw me space is_space unstyled).

Lemma reserve_none : forall k : look, titles_in_borders k -> reserve_top k = 0 /\ reserve_bottom k = 0.
Proof.
  intros k [T S]. unfold reserve_top, reserve_bottom, border_top, border_bottom, cache_of, cache_new, visible_edges. cbn [rc_border e_top e_bottom].
  split.
  - destruct (shown_h (e_top (k_border k))); cbn; [reflexivity|]. rewrite (T eq_refl). cbn. rewrite andb_false_r. reflexivity.
  - destruct (shown_h (e_bottom (k_border k))); cbn; [reflexivity|]. rewrite (S eq_refl). cbn. rewrite andb_false_r. reflexivity.
Qed.
Lemma aligned_shows : forall (k : look) wrap w h, titles_in_borders k ->
  let ls := wrap (Nat.max (room_w k w - k_line_pad k * 2) 1) in plain_lines gw ls -> 0 < room_w k w -> 0 < room_h k h ->
  let rows := aligned k wrap w h in
  Forall (plain gw) rows /\ Forall (fun r => length (cells r) = room_w k w) rows /\ length rows = room_h k h /\
  shows_text is_space k (room_w k w) (room_h k h) (padc (Some (unstyled (k_style k)))) (text_lines (padc (Some (k_style k))) k ls) (map (@cells G St Mt) rows).
Proof.
  intros k wrap w h T ls P Hw Hh rows. subst rows. unfold aligned. rewrite inner_room. destruct (reserve_none k T) as [-> ->].
  rewrite Nat.add_0_r, Nat.sub_0_r.
  destruct (lines_for_plain gw me space ellipsis dash is_space Wsp Wel Wda Isp k wrap (room_w k w) Hw P) as [LP LC].
  destruct (align_content_shows gw me space ellipsis dash is_space unstyled Wsp Wel Wda Isp k _ (room_w k w) (room_h k h) LP Hw Hh) as (R1 & R2 & R3 & R4).
  rewrite LC in R4. auto.
Qed.

Lemma draw_nth : forall (k : look) wrap w h y, 0 < w -> y < h ->
  nth_error (draw k wrap w h) y = Some (draw_row gw me space ellipsis dash sd k (aligned k wrap w h) w h y).
Proof.
  intros k wrap w h y Hw Hy. unfold draw. destruct (Nat.eqb_spec w 0) as [?|_]; [lia|]. destruct (Nat.eqb_spec h 0) as [?|_]; [lia|]. cbn [orb].
  rewrite nth_error_map. rewrite (nth_error_nth' (seq 0 h) 0) by (rewrite seq_length; exact Hy). rewrite seq_nth by exact Hy. reflexivity.
Qed.
Lemma draw_none : forall (k : look) wrap w h y, w = 0 \/ h <= y -> nth_error (draw k wrap w h) y = None.
Proof.
  intros k wrap w h y H. unfold draw. destruct (Nat.eqb_spec w 0) as [?|Nw]; cbn [orb]; [destruct y; reflexivity|]. destruct (Nat.eqb_spec h 0) as [?|Nh]; [destruct y; reflexivity|].
  apply nth_error_None. rewrite map_length, seq_length. lia.
Qed.


Lemma content_drawn : forall (k : look) wrap w h i s, titles_in_borders k -> not_outlined k -> glyph_boxes gw k -> 0 < room_w k w ->
  i < room_h k h -> nth_error (aligned k wrap w h) i = Some s -> plain gw s -> length (cells s) = room_w k w ->
  cells (draw_row gw me space ellipsis dash sd k (aligned k wrap w h) w h (first_row k + i)) = framed (padc (k_pad k)) k (cells s).
Proof.
  intros k wrap w h i s T O Gb Hw Hi N P L. unfold draw_row. destruct (reserve_none k T) as [-> ->].
  unfold first_row, room_h in *.
  assert (E : border_top (cache_of k) + e_top (k_padding k) + 0 = b2n (shown_h (e_top (k_border k))) + e_top (k_padding k)) by (unfold border_top; cbn; lia).
  assert (E' : border_bottom (cache_of k) + e_bottom (k_padding k) + 0 = b2n (shown_h (e_bottom (k_border k))) + e_bottom (k_padding k)) by (unfold border_bottom; cbn; lia).
  rewrite E, E'.
  destruct (Nat.leb_spec (b2n (shown_h (e_top (k_border k))) + e_top (k_padding k)) (b2n (shown_h (e_top (k_border k))) + e_top (k_padding k) + i)) as [_|?]; [|lia].
  destruct (Nat.ltb_spec (b2n (shown_h (e_top (k_border k))) + e_top (k_padding k) + i) (h - (b2n (shown_h (e_bottom (k_border k))) + e_bottom (k_padding k)))) as [_|?]; [|lia].
  cbn [andb]. replace (b2n (shown_h (e_top (k_border k))) + e_top (k_padding k) + i - (b2n (shown_h (e_top (k_border k))) + e_top (k_padding k))) with i by lia.
  rewrite N.
  pose proof (C49_content_row gw me space ellipsis dash sd (cache_of k) (b2n (shown_h (e_top (k_border k))) + e_top (k_padding k) + i) h w (Some s)
    (if has_border (cache_of k) then k_title k else None) (if has_border (cache_of k) then k_subtitle k else None)) as C.
  assert (C' := C (conj Wsp (conj Wel Wda)) Gb). clear C.
  assert (C : 0 < w) by (unfold room_w in Hw; lia).
  specialize (C' ltac:(intros s' Es; injection Es as <-; exact P) C). clear C.
  specialize (C' ltac:(unfold Row_Spec.inside; cbn; lia)).
  specialize (C' ltac:(destruct T as [T1 T2]; split; intros _ F _; cbn in F; [rewrite (T1 F)|rewrite (T2 F)]; match goal with |- (if ?b then _ else _) = _ => destruct b; reflexivity end) O).
  unfold framed. cbn [cache_of cache_new rc_box rc_border rc_padding rc_pad_style visible_edges e_left e_right] in C'.
  destruct (k_box k) as [[tp [[lf fl] rt]] bt]. cbv zeta in C'.
  match type of C' with cells ?a = _ => match goal with |- cells ?b = _ => change b with a end end. rewrite C'.
  do 2 f_equal. cbn [cells_opt].
  assert (F : w - (b2n (shown_v (e_left (k_border k))) + b2n (shown_v (e_right (k_border k)))) - (e_left (k_padding k) + e_right (k_padding k)) = length (cells s)) by (rewrite L; unfold room_w; lia).
  rewrite F. unfold fit. rewrite firstn_all, Nat.sub_diag. cbn [repeat]. rewrite app_nil_r. reflexivity.
Qed.
End Draw.

Lemma from_seg1 : forall (G St Mt : Type) (x : @segment G St Mt), from_segment x = from_segments [x].
Proof. intros. unfold from_segment, from_segments. cbn. f_equal. lia. Qed.

Section Links.
Context {G St Mt A : Type}.
Variable gw : G -> nat.
Variable me : Mt.
Variables space ellipsis dash : G.
Variable is_space : G -> bool.
Variable sd : St.
Variable unstyled : St -> St.
Variable link_of : Mt -> option A.
Hypothesis Wsp : gw space = 1.
Hypothesis Wel : gw ellipsis = 1.
Hypothesis Wda : gw dash = 1.
Hypothesis Isp : forall g, is_space g = true <-> g = space.
Hypothesis Lme : link_of me = None.
Notation strip := (@strip G St Mt).
Notation segment := (@segment G St Mt).
Notation cell := (@cell G St Mt).
Notation look := (@look G St Mt).
Notation wline := (@wline G St Mt).
Notation cache := (@cache G St Mt).
Notation padc st := ((space, st, me) : cell).
Notation draw := (draw gw me space ellipsis dash is_space sd unstyled).
Notation aligned := (aligned gw me space is_space unstyled).
Notation nl := (no_links link_of).
Notation new_seg := (segment_new gw me).
Definition olink (o : option cell) : option A := match o with Some c => link_of (snd c) | None => None end.

Lemma nl_app : forall a b : list cell, nl (a ++ b) <-> nl a /\ nl b.
Proof. intros. apply Forall_app. Qed.
Lemma nl_nth : forall (l : list cell) x, nl l -> olink (nth_error l x) = None.
Proof.
  intros l x H. unfold olink. destruct (nth_error l x) eqn:E; [|reflexivity]. apply nth_error_In in E. unfold no_links in H. rewrite Forall_forall in H. apply H. exact E.
Qed.
Lemma nl_from : forall l : list segment, Forall (fun x => nl (seg_cells x)) l -> nl (cells (from_segments l)).
Proof. intros l H. rewrite from_segments_cells. induction H as [|x l Hx _ IH]; [constructor|]. cbn [flat_map]. apply nl_app. auto. Qed.
Lemma nl_segs : forall s : strip, nl (cells s) -> Forall (fun x => nl (seg_cells x)) (st_segs s).
Proof.
  intros s H. unfold cells in H. induction (st_segs s) as [|x l IH]; constructor; cbn [flat_map] in H; apply nl_app in H; [apply H|apply IH; apply H].
Qed.
Lemma nl_meta : forall x : segment, link_of (sg_meta x) = None -> nl (seg_cells x).
Proof. intros x H. unfold seg_cells, no_links. apply Forall_map. apply Forall_forall. intros g _. exact H. Qed.
Lemma nl_new : forall t (st : option St), nl (seg_cells (new_seg t st)).
Proof. intros. apply nl_meta. exact Lme. Qed.
Lemma nl_blank_seg : forall n (st : option St), nl (seg_cells (segment_blank me space n st)).
Proof. intros. apply nl_meta. exact Lme. Qed.
Lemma nl_blank : forall n (st : option St), nl (cells (strip_blank me space n st)).
Proof. intros. unfold strip_blank. destruct (n =? 0); [constructor|]. rewrite from_seg1. apply nl_from. repeat constructor. apply nl_blank_seg. Qed.
Lemma nl_crop : forall (s : strip) n, plain gw s -> nl (cells s) -> nl (cells (crop gw s 0 n)).
Proof.
  intros s n P H. destruct (crop_plain gw s 0 n P) as [_ ->]. cbn [skipn]. unfold no_links in *. rewrite Forall_forall in *. intros c I. apply H.
  rewrite <- (firstn_skipn (n - 0) (cells s)). apply in_or_app. left. exact I.
Qed.
Lemma nl_pos : forall n x, nl (seg_cells x) -> Forall (fun x : segment => nl (seg_cells x)) (when_pos n x).
Proof. intros n x H. unfold when_pos. destruct (0 <? n); auto. Qed.
Lemma nl_when : forall b x, nl (seg_cells x) -> Forall (fun x : segment => nl (seg_cells x)) (when b x).
Proof. intros [] x H; cbn; auto. Qed.
Lemma nl_rcs : forall (x : segment) n, nl (seg_cells (repeat_char_segment gw me space x n)).
Proof. intros. unfold repeat_char_segment. destruct (n =? 0); apply nl_new. Qed.

Ltac nls := repeat (cbv beta; match goal with
  | |- no_links _ (seg_cells (segment_new _ _ _ _)) => apply nl_new
  | |- no_links _ (seg_cells (segment_blank _ _ _ _)) => apply nl_blank_seg
  | |- no_links _ (seg_cells (repeat_char_segment _ _ _ _ _)) => apply nl_rcs
  | |- no_links _ (cells (strip_blank _ _ _ _)) => apply nl_blank
  | |- Forall _ (_ ++ _) => apply Forall_app; split
  | |- Forall _ (_ :: _) => apply Forall_cons
  | |- Forall _ [] => apply Forall_nil
  | |- Forall _ (when_pos _ _) => apply nl_pos
  | |- Forall _ (when _ _) => apply nl_when
  | |- Forall _ (st_segs _) => apply nl_segs
  end).

Lemma nl_label : forall (label : strip) (fill : segment) w al, plain gw label -> nl (cells label) -> nl (cells (render_label_in_row gw me space ellipsis label fill w al)).
Proof.
  intros label fill w al P H. unfold render_label_in_row. cbv zeta. destruct (w - 2 <? st_len label + 2).
  - apply nl_from. nls. apply nl_crop; assumption.
  - destruct (label_padding al (w - (st_len label + 2))) as [l r]. apply nl_from. nls. exact H.
Qed.
Lemma nl_repeat : forall (fill : segment) n, nl (cells (repeat_segment gw me space fill n)).
Proof. intros. unfold repeat_segment. destruct (n =? 0); [constructor|]. rewrite from_seg1. apply nl_from. nls. Qed.
Definition nlo (o : option strip) : Prop := forall s, o = Some s -> plain gw s /\ nl (cells s).
Lemma nl_render_row : forall row w t s ta sa, row_unlinked link_of row -> nlo t -> nlo s -> nl (cells (render_row gw me space ellipsis row w t s ta sa)).
Proof.
  intros [[lf fl] rt] w t s ta sa (Hl & Hf & Hr) Ht Hs. unfold render_row. apply nl_meta in Hl. apply nl_meta in Hf. apply nl_meta in Hr.
  destruct (w <=? 2).
  - destruct (w =? 2); [apply nl_from; nls; assumption|]. destruct (w =? 1); [rewrite from_seg1; apply nl_from; nls; assumption|constructor].
  - destruct t as [t|].
    + destruct (Ht t eq_refl). apply nl_from. nls; try assumption. apply nl_label; assumption.
    + destruct s as [s|].
      * destruct (Hs s eq_refl). apply nl_from. nls; try assumption. apply nl_label; assumption.
      * apply nl_from. nls; try assumption. apply nl_repeat.
Qed.
Lemma nl_hrow : forall (row : @box_row G St Mt) w t al, nlo t -> nl (cells (render_horizontal_border_row gw me ellipsis dash sd row w t al)).
Proof.
  intros [[lf fl] rt] w t al Ht. unfold render_horizontal_border_row. cbv zeta. destruct t as [t|].
  - destruct (Ht t eq_refl). destruct (w - 2 <? st_len t); [apply nl_from; nls; apply nl_crop; assumption|].
    destruct (label_padding al (w - st_len t)) as [a b]. apply nl_from. nls. assumption.
  - rewrite from_seg1. apply nl_from. nls.
Qed.
Lemma nl_content : forall (c : cache) w, nl (cells (render_content_row gw me space c w None)).
Proof. intros. unfold render_content_row, content_or_blank. cbv zeta. destruct ((pl c =? 0) && (pr c =? 0)); [apply nl_blank|]. apply nl_from. nls. Qed.
Lemma nl_row : forall (c : cache) y h w title sub, any_edge (rc_outline c) = false ->
  (let '(a, b, d) := rc_box c in row_unlinked link_of a /\ row_unlinked link_of b /\ row_unlinked link_of d) -> nlo title -> nlo sub ->
  nl (cells (render_line gw me space ellipsis dash sd c y h w None title sub)).
Proof.
  intros c y h w title sub O B Ht Hs. unfold render_line. destruct ((w =? 0) || (h =? 0)); [constructor|].
  assert (Q : nl (cells (fst (base_row gw me space ellipsis dash sd c y h w None title sub)))).
  { unfold base_row. destruct (negb (has_border c)); [apply nl_content|]. destruct (rc_box c) as [[tp md] bt]. destruct B as (Bt & Bm & Bb).
    destruct ((y =? 0) && e_top (rc_border c)); [cbn [fst]; destruct (e_left (rc_border c) && e_right (rc_border c)); [apply nl_render_row; try assumption; discriminate|apply nl_hrow; assumption]|].
    destruct ((y =? h - 1) && e_bottom (rc_border c)); [cbn [fst]; destruct (e_left (rc_border c) && e_right (rc_border c)); [apply nl_render_row; try assumption; discriminate|apply nl_hrow; assumption]|].
    destruct ((border_top c <=? y) && (y <? h - border_bottom c)); [|apply nl_blank].
    destruct (e_left (rc_border c) || e_right (rc_border c)); [|apply nl_content].
    assert (R : forall t al, row_label c y h title sub = Some (t, al) -> plain gw t /\ nl (cells t)).
    { intros t al E. unfold row_label in E.
      destruct (negb (e_top (rc_border c)) && (y =? border_top c)); [destruct title as [t'|]; [injection E as <- _; apply Ht; reflexivity|]|];
        (destruct (negb (e_bottom (rc_border c)) && (y + 1 =? h - border_bottom c)); [destruct sub as [s'|]; [injection E as <- _; apply Hs; reflexivity|discriminate]|discriminate]). }
    destruct md as [[lf fl] rt]. destruct Bm as (Bl & Bf & Br). apply nl_meta in Bl. apply nl_meta in Bf. apply nl_meta in Br.
    destruct (row_label c y h title sub) as [[t al]|].
    - destruct (R t al eq_refl) as [Pt Nt]. cbn [fst]. unfold render_labeled_middle_row. apply nl_from. nls; try assumption. apply nl_label; assumption.
    - cbn [fst]. unfold render_partial_middle_row, content_or_blank. apply nl_from. nls; assumption. }
  destruct (base_row gw me space ellipsis dash sd c y h w None title sub) as [s done]. cbn [fst] in Q. destruct done; [exact Q|].
  unfold apply_outline, has_outline. rewrite O. exact Q.
Qed.

(** Finding links in the regions. *)
Lemma find_app_ : forall (X : Type) (f : X -> bool) a b, find f (a ++ b) = match find f a with Some x => Some x | None => find f b end.
Proof. intros X f a b. induction a as [|x a IH]; [reflexivity|]. cbn. destruct (f x); [reflexivity|exact IH]. Qed.
Lemma row_find : forall (segs : list segment) col row left x y, Forall (pseg gw) segs ->
  find_link (row_links link_of row left col segs) x y = if (y =? row) && (left + col <=? x) then olink (nth_error (flat_map seg_cells segs) (x - (left + col))) else None.
Proof.
  induction segs as [|s r IH]; intros col row left x y P.
  - cbn [row_links flat_map find_link find option_map]. destruct ((y =? row) && (left + col <=? x)); [|reflexivity]. destruct (x - (left + col)); reflexivity.
  - inversion P as [|? ? Ps Pr]; subst.
    assert (Ln : length (seg_cells s) = sg_len s).
    { destruct Ps as [O N]. unfold seg_ok in O. rewrite O. unfold seg_cells, all_narrow in *. rewrite map_length. apply Forall_map in N. cbn in N. clear - N.
      induction (sg_text s) as [|g t IHt]; [reflexivity|]. inversion N; subst. unfold text_width in *. cbn. rewrite H1. rewrite IHt by assumption. reflexivity. }
    cbn [row_links flat_map]. unfold find_link. rewrite find_app_.
    specialize (IH (col + sg_len s) row left x y Pr). unfold find_link in IH.
    assert (Nth : left + col <= x -> x < left + col + sg_len s -> olink (nth_error (seg_cells s ++ flat_map seg_cells r) (x - (left + col))) = link_of (sg_meta s)).
    { intros H1 H2. rewrite nth_error_app1 by lia. unfold seg_cells. rewrite nth_error_map. unfold seg_cells in Ln. rewrite map_length in Ln.
      destruct (nth_error (sg_text s) (x - (left + col))) eqn:E; [reflexivity|]. apply nth_error_None in E. lia. }
    assert (Nth' : left + col + sg_len s <= x -> nth_error (seg_cells s ++ flat_map seg_cells r) (x - (left + col)) = nth_error (flat_map seg_cells r) (x - (left + (col + sg_len s)))).
    { intros H1. rewrite nth_error_app2 by lia. f_equal. lia. }
    destruct (Nat.eqb_spec y row) as [Ey|Ny]; cbn [andb] in IH; cbn [andb].
    + rewrite Ey in *. clear Ey. destruct (link_of (sg_meta s)) as [a|] eqn:Es; cbn [find l_row l_start l_end l_action].
      * rewrite Nat.eqb_refl. cbn [andb].
        destruct (Nat.leb_spec (col + left) x) as [H1|H1]; cbn [andb].
        -- destruct (Nat.leb_spec (left + col) x) as [_|?]; [|lia].
           destruct (Nat.ltb_spec x (col + sg_len s + left)) as [H2|H2]; cbn [option_map l_action].
           ++ symmetry. apply Nth; lia.
           ++ rewrite IH. destruct (Nat.leb_spec (left + (col + sg_len s)) x) as [_|?]; [|lia]. rewrite Nth' by lia. reflexivity.
        -- destruct (Nat.leb_spec (left + col) x) as [?|_]; [lia|]. rewrite IH. destruct (Nat.leb_spec (left + (col + sg_len s)) x) as [?|_]; [lia|reflexivity].
      * rewrite IH. destruct (Nat.leb_spec (left + col) x) as [H1|H1].
        -- destruct (Nat.leb_spec (left + (col + sg_len s)) x) as [H2|H2]; [rewrite Nth' by lia; reflexivity|]. symmetry. apply Nth; lia.
        -- destruct (Nat.leb_spec (left + (col + sg_len s)) x) as [?|_]; [lia|reflexivity].
    + assert (F : forall a, find (fun r0 : link => (y =? l_row r0) && (l_start r0 <=? x) && (x <? l_end r0))
        match link_of (sg_meta s) with Some a => [Link a row (col + left) (col + sg_len s + left)] | None => [] end = Some a -> False).
      { intros a E. destruct (link_of (sg_meta s)); [|discriminate]. cbn [find l_row] in E. destruct (Nat.eqb_spec y row); [contradiction|]. discriminate. }
      destruct (find _ match link_of (sg_meta s) with Some a => _ | None => _ end) as [a|] eqn:E; [destruct (F a eq_refl)|]. exact IH.
Qed.
Lemma all_find : forall (lines : list strip) top left row x y, Forall (plain gw) lines ->
  find_link (all_links link_of top left row lines) x y =
  if (row + top <=? y) && (left <=? x) then olink (match nth_error lines (y - (row + top)) with Some s => nth_error (cells s) (x - left) | None => None end) else None.
Proof.
  induction lines as [|s r IH]; intros top left row x y P.
  - cbn [all_links find_link find option_map]. destruct ((row + top <=? y) && (left <=? x)); [|reflexivity]. destruct (y - (row + top)); reflexivity.
  - inversion P as [|? ? Ps Pr]; subst. cbn [all_links]. unfold find_link. rewrite find_app_.
    pose proof (row_find (st_segs s) 0 (row + top) left x y (plain_segs gw s Ps)) as R. unfold find_link in R. rewrite Nat.add_0_r in R.
    specialize (IH top left (S row) x y Pr). unfold find_link in IH.
    destruct (find _ (row_links link_of (row + top) left 0 (st_segs s))) as [l|]; cbn [option_map] in R |- *.
    + destruct (Nat.eqb_spec y (row + top)) as [->|N]; cbn [andb] in R; [|discriminate]. rewrite Nat.leb_refl, Nat.sub_diag. cbn [andb nth_error].
      destruct (left <=? x); [exact R|discriminate].
    + rewrite IH. destruct (Nat.eqb_spec y (row + top)) as [->|N]; cbn [andb] in R.
      * rewrite Nat.leb_refl, Nat.sub_diag. cbn [andb nth_error]. destruct (Nat.leb_spec (S row + top) (row + top)) as [?|_]; [lia|]. cbn [andb].
        destruct (left <=? x); [exact R|reflexivity].
      * destruct (Nat.leb_spec (row + top) y) as [H|H]; cbn [andb].
        -- destruct (Nat.leb_spec (S row + top) y) as [_|?]; [|lia]. cbn [andb]. destruct (left <=? x); [|reflexivity].
           replace (y - (row + top)) with (S (y - (S row + top))) by lia. reflexivity.
        -- destruct (Nat.leb_spec (S row + top) y) as [?|_]; [lia|reflexivity].
Qed.

Definition left_edge (k : look) : nat := b2n (shown_v (e_left (k_border k))) + e_left (k_padding k).
Lemma framed_link : forall (k : look) r x, glyph_boxes gw k -> unlinked link_of k ->
  olink (nth_error (framed (padc (k_pad k)) k r) x) = if left_edge k <=? x then olink (nth_error r (x - left_edge k)) else None.
Proof.
  intros k r x [Gb _] [Ub _]. unfold framed, left_edge. destruct (k_box k) as [[tp [[lf fl] rt]] bt]. destruct Gb as (_ & (Gl & Gf & Gr) & _). destruct Ub as (_ & (Ul & Uf & Ur) & _).
  assert (Pads : forall n, nl (repeat (padc (k_pad k)) n)) by (intros n; apply Forall_forall; intros c I; apply repeat_spec in I; subst c; exact Lme).
  assert (Ed : forall b s, link_of (sg_meta s) = None -> nl (edge_cells b s)) by (intros [] s H; [apply nl_meta; exact H|constructor]).
  assert (Le := edge_len gw (shown_v (e_left (k_border k))) lf Gl).
  rewrite app_assoc. set (pre := edge_cells (shown_v (e_left (k_border k))) lf ++ repeat (padc (k_pad k)) (e_left (k_padding k))).
  assert (Np : nl pre) by (apply nl_app; auto).
  assert (Lp : length pre = b2n (shown_v (e_left (k_border k))) + e_left (k_padding k)) by (subst pre; rewrite app_length, repeat_length, Le; reflexivity).
  rewrite <- Lp. destruct (Nat.leb_spec (length pre) x) as [H|H].
  - rewrite nth_error_app2 by exact H. destruct (le_lt_dec (length r) (x - length pre)) as [Q|Q].
    + rewrite nth_error_app2 by exact Q. rewrite nl_nth by (apply nl_app; auto). apply nth_error_None in Q. rewrite Q. reflexivity.
    + rewrite nth_error_app1 by exact Q. reflexivity.
  - rewrite nth_error_app1 by exact H. apply nl_nth. exact Np.
Qed.

Lemma links_shown : forall (k : look) wrap w h x y, titles_in_borders k -> not_outlined k -> glyph_boxes gw k -> unlinked link_of k ->
  plain_opt gw (k_title k) -> plain_opt gw (k_subtitle k) ->
  plain_lines gw (wrap (Nat.max (room_w k w - k_line_pad k * 2) 1)) -> 0 < w -> 0 < h ->
  find_link (links gw me space is_space unstyled link_of k wrap w h) x y = link_at link_of (draw k wrap w h) x y.
Proof.
  intros k wrap w h x y T O Gb U Pt Ps P Hw Hh.
  assert (Rows : Forall (plain gw) (aligned k wrap w h) /\ (0 < room_w k w -> 0 < room_h k h -> Forall (fun r => length (cells r) = room_w k w) (aligned k wrap w h) /\ length (aligned k wrap w h) = room_h k h) /\
     (room_w k w = 0 \/ room_h k h = 0 -> aligned k wrap w h = [])).
  { assert (E : room_w k w = 0 \/ room_h k h = 0 -> aligned k wrap w h = []).
    { intros E. unfold aligned. rewrite inner_room. unfold align_content. destruct E as [-> | ->]; [reflexivity|]. rewrite orb_comm. reflexivity. }
    destruct (Nat.eq_dec (room_w k w) 0) as [Z|Z]; [rewrite E by auto; split; [constructor|split; [lia|auto]]|].
    destruct (Nat.eq_dec (room_h k h) 0) as [Z'|Z']; [rewrite E by auto; split; [constructor|split; [lia|auto]]|].
    destruct (aligned_shows gw me space ellipsis dash is_space unstyled Wsp Wel Wda Isp k wrap w h T P) as (R1 & R2 & R3 & _); [lia|lia|]. auto. }
  destruct Rows as (Rp & Rl & Re).
  unfold links, link_at. rewrite all_find by exact Rp. cbn [Nat.add].
  change (border_top (cache_of k) + e_top (k_padding k)) with (first_row k). change (border_left (cache_of k) + e_left (k_padding k)) with (left_edge k).
  destruct (le_lt_dec h y) as [Hy|Hy].
  { rewrite (draw_none gw me space ellipsis dash is_space sd unstyled Wsp Wel Wda Isp) by auto. destruct (Nat.leb_spec (first_row k) y) as [H|H]; cbn [andb]; [|reflexivity]. destruct (left_edge k <=? x); [|reflexivity].
    destruct (Nat.eq_dec (room_w k w) 0) as [Z|Z]; [rewrite Re by auto; destruct (y - first_row k); reflexivity|].
    destruct (Nat.eq_dec (room_h k h) 0) as [Z'|Z']; [rewrite Re by auto; destruct (y - first_row k); reflexivity|].
    destruct Rl as [_ R3]; [lia|lia|]. replace (nth_error (aligned k wrap w h) (y - first_row k)) with (@None strip); [reflexivity|].
    symmetry. apply nth_error_None. rewrite R3. unfold room_h, first_row in *. lia. }
  rewrite (draw_nth gw me space ellipsis dash is_space sd unstyled Wsp Wel Wda Isp) by assumption. fold (olink (nth_error (cells (draw_row gw me space ellipsis dash sd k (aligned k wrap w h) w h y)) x)).
  assert (Blank : (if first_row k <=? y then nth_error (aligned k wrap w h) (y - first_row k) else None) = None \/ h - (b2n (shown_h (e_bottom (k_border k))) + e_bottom (k_padding k)) <= y ->
     olink (nth_error (cells (draw_row gw me space ellipsis dash sd k (aligned k wrap w h) w h y)) x) = None).
  { intros N. apply nl_nth. unfold draw_row. destruct (reserve_none k T) as [-> ->]. rewrite !Nat.add_0_r.
    change (border_top (cache_of k) + e_top (k_padding k)) with (first_row k). change (border_bottom (cache_of k) + e_bottom (k_padding k)) with (b2n (shown_h (e_bottom (k_border k))) + e_bottom (k_padding k)).
    assert (Nc : (if (first_row k <=? y) && (y <? h - (b2n (shown_h (e_bottom (k_border k))) + e_bottom (k_padding k))) then nth_error (aligned k wrap w h) (y - first_row k) else None) = None).
    { destruct N as [N|N]; [destruct (first_row k <=? y); cbn [andb]; [|reflexivity]; rewrite N; match goal with |- (if ?b then _ else _) = _ => destruct b; reflexivity end|].
      destruct (Nat.ltb_spec y (h - (b2n (shown_h (e_bottom (k_border k))) + e_bottom (k_padding k)))) as [?|_]; [lia|]. rewrite andb_false_r. reflexivity. }
    rewrite Nc. destruct U as (Ub & Ut & Us). apply nl_row; [exact O|exact Ub| |].
    - intros s E. destruct (has_border (cache_of k)); [|discriminate]. split; [apply Pt; exact E|apply Ut; exact E].
    - intros s E. destruct (has_border (cache_of k)); [|discriminate]. split; [apply Ps; exact E|apply Us; exact E]. }
  destruct (Nat.leb_spec (first_row k) y) as [H|H]; cbn [andb].
  - destruct (nth_error (aligned k wrap w h) (y - first_row k)) as [s|] eqn:E.
    + assert (Is := nth_error_In _ _ E).
      destruct (Nat.eq_dec (room_w k w) 0) as [Z|Z]; [rewrite Re in Is by auto; destruct Is|].
      destruct (Nat.eq_dec (room_h k h) 0) as [Z'|Z']; [rewrite Re in Is by auto; destruct Is|].
      destruct Rl as [R2 R3]; [lia|lia|].
      assert (Q : y - first_row k < room_h k h) by (rewrite <- R3; apply nth_error_Some; rewrite E; discriminate).
      rewrite Forall_forall in R2, Rp.
      pose proof (content_drawn gw me space ellipsis dash is_space sd unstyled Wsp Wel Wda Isp k wrap w h (y - first_row k) s T O Gb ltac:(lia) Q E (Rp s Is) (R2 s Is)) as C.
      replace (first_row k + (y - first_row k)) with y in C by lia. rewrite C. rewrite framed_link by assumption. reflexivity.
    + rewrite Blank by auto. destruct (left_edge k <=? x); reflexivity.
  - rewrite Blank by auto. reflexivity.
Qed.
End Links.
