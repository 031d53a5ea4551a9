(** C49: every rendered row is exactly as wide as its region, and shows what it
    should.  [G] are grapheme clusters, [St] styles, [Mt] metadata; [space],
    [ellipsis] and [dash] are the one-cell glyphs the code inserts. *)
From Coq Require Import List Arith Bool Lia.
From Verif Require Import Strip_Model Strip_Spec Strip_Proofs Row_Model Row_Spec Row_Proofs.
Import ListNotations.

Section Props.
Context {G St Mt : Type}.
Variable gw : G -> nat.
Variable me : Mt.
Variables space ellipsis dash : G.
Variable sd : St.
Notation strip := (@strip G St Mt).
Notation cache := (@cache G St Mt).
Notation line := (@render_line G St Mt gw me space ellipsis dash sd).
Notation cell := (@cell G St Mt).
Definition glyphs : Prop := gw space = 1 /\ gw ellipsis = 1 /\ gw dash = 1.

Lemma inside_border : forall (c : cache) y h, inside c y h ->
  (y =? 0) && e_top (rc_border c) = false /\ (y =? h - 1) && e_bottom (rc_border c) = false /\ (border_top c <=? y) && (y <? h - border_bottom c) = true.
Proof.
  intros c y h [A B]. unfold border_top, border_bottom. destruct (e_top (rc_border c)), (e_bottom (rc_border c)); cbn [b2n] in *;
    (split; [|split]); rewrite ?andb_false_r, ?andb_true_r; auto; try (apply Nat.eqb_neq; lia);
    apply andb_true_iff; split; try (apply Nat.leb_le; lia); apply Nat.ltb_lt; lia.
Qed.
Lemma no_outline_id : forall (c : cache) s y h w, no_outline c -> apply_outline gw me space dash sd c s y h w = s.
Proof. intros c s y h w N. unfold apply_outline, has_outline. rewrite N. reflexivity. Qed.


Lemma inside_label : forall (c : cache) y h title subtitle, inside c y h -> sides c = true -> no_label c y h title subtitle -> row_label c y h title subtitle = None.
Proof.
  intros c y h title subtitle I S [N1 N2]. unfold inside in I. unfold row_label, border_top, border_bottom.
  destruct (e_top (rc_border c)) eqn:E1; cbn [negb andb b2n] in *.
  - destruct (e_bottom (rc_border c)) eqn:E2; cbn [negb andb b2n] in *; [reflexivity|]. destruct (Nat.eqb_spec (y + 1) (h - 0)); [|reflexivity]. rewrite N2; auto. lia.
  - assert (X : match (if y =? 0 then title else None) with Some t => Some (t, rc_title_align c) | None => None end = None).
    { destruct (Nat.eqb_spec y 0); [|reflexivity]. rewrite N1; auto. }
    destruct (if y =? 0 then title else None); [discriminate|]. destruct (e_bottom (rc_border c)) eqn:E2; cbn [negb andb b2n] in *; [reflexivity|]. destruct (Nat.eqb_spec (y + 1) (h - 0)); [|reflexivity]. rewrite N2; auto. lia.
Qed.
Lemma fold_line : forall (c : cache) y h w content title subtitle, 0 < w -> 0 < h ->
  line c y h w content title subtitle = (let '(s, done) := base_row gw me space ellipsis dash sd c y h w content title subtitle in if done then s else apply_outline gw me space dash sd c s y h w).
Proof. intros. unfold render_line. destruct (Nat.eqb_spec w 0); [lia|]. destruct (Nat.eqb_spec h 0); [lia|]. reflexivity. Qed.

(** C49. A row between the borders: side borders, padding, then the content cut
    or filled up to the remaining columns. *)
Theorem C49_content_row : forall (c : cache) y h w content title subtitle, glyphs -> boxes_ok gw c -> plain_opt gw content -> 0 < w ->
  inside c y h -> no_label c y h title subtitle -> no_outline c ->
  let pad := (space, rc_pad_style c, me) in
  let '(_, (lft, _, rgt), _) := rc_box c in
  let bl := b2n (e_left (rc_border c)) in let br := b2n (e_right (rc_border c)) in
  let pl := e_left (rc_padding c) in let pr := e_right (rc_padding c) in
  cells (line c y h w content title subtitle) =
    edge_cells (e_left (rc_border c)) lft ++ repeat pad pl ++ fit (w - (bl + br) - (pl + pr)) pad (cells_opt content) ++ repeat pad pr
      ++ edge_cells (e_right (rc_border c)) rgt.
Proof.
  intros c y h w content title subtitle (W1 & W2 & W3) [Bx _] P Hw I N O. cbv zeta. assert (Hh : 0 < h) by (unfold inside in I; lia).
  rewrite fold_line by assumption. unfold base_row. destruct (inside_border c y h I) as (A1 & A2 & A3). rewrite A1, A2, A3.
  destruct (rc_box c) as [[top [[lft fl] rgt]] bottom]. destruct Bx as (_ & Bm & _).
  destruct (content_row gw me space ellipsis dash W1 W2 W3 c w content P) as [_ CR].
  destruct (partial_row gw me space ellipsis dash W1 W2 W3 c (lft, fl, rgt) w content Bm P) as [_ PR]. cbn [fst snd] in PR.
  destruct (has_border c) eqn:HB; cbn [negb].
  - destruct (e_left (rc_border c) || e_right (rc_border c)) eqn:SD.
    + rewrite inside_label by assumption. rewrite no_outline_id by exact O. exact PR.
    + rewrite no_outline_id by exact O. rewrite CR. apply orb_false_elim in SD. destruct SD as [-> ->]. cbn [edge_cells b2n app Nat.add]. rewrite Nat.sub_0_r, app_nil_r. reflexivity.
  - rewrite no_outline_id by exact O. rewrite CR. unfold has_border, any_edge in HB. apply orb_false_elim in HB. destruct HB as [HB ->]. apply orb_false_elim in HB. destruct HB as [HB _]. apply orb_false_elim in HB. destruct HB as [_ ->].
    cbn [edge_cells b2n app Nat.add]. rewrite Nat.sub_0_r, app_nil_r. reflexivity.
Qed.

(** C49. The top border row of a box with four borders: corners, and between
    them the line with the title, cut with an ellipsis if it is too long. *)
Definition edge_row (row : @box_row G St Mt) (w : nat) (align : halign) (label : option strip) (r : list cell) : Prop :=
  let '(lft, fill, rgt) := row in
  let f := (first_or space fill, sg_style fill, me) in
  match label with
  | None => r = seg_cells lft ++ repeat f (w - 2) ++ seg_cells rgt
  | Some t =>
      let sp := (space, first_style t, me) in
      (length (cells t) + 6 <= w -> exists a b, placed align (w - 2) (length (cells t) + 2) a b /\
         r = seg_cells lft ++ repeat f a ++ [sp] ++ cells t ++ [sp] ++ repeat f b ++ seg_cells rgt) /\
      (w < length (cells t) + 6 -> 7 <= w -> exists e,
         r = seg_cells lft ++ [f; sp] ++ firstn (w - 7) (cells t) ++ [(ellipsis, e, me); sp; f] ++ seg_cells rgt)
  end.
Lemma edge_row_intro : forall row w title sub ta sa, glyphs -> row_ok gw row -> plain_opt gw title -> plain_opt gw sub -> 3 <= w ->
  edge_row row w (match title with Some _ => ta | None => sa end) (match title with Some _ => title | None => sub end) (cells (render_row gw me space ellipsis row w title sub ta sa)).
Proof.
  intros [[lft fill] rgt] w title sub ta sa (W1 & W2 & W3) R P1 P2 H.
  pose proof (full_row gw me space ellipsis dash W1 W2 W3 (lft, fill, rgt) w title sub ta sa R P1 P2 H) as [_ F]. unfold edge_row. rewrite F. destruct R as (_ & Rf & _).
  assert (K : forall t al, plain gw t -> let sp := (space, first_style t, me) in let f := (first_or space fill, sg_style fill, me) in
    let m := cells (render_label_in_row gw me space ellipsis t fill (w - 2) al) in
    (length (cells t) + 6 <= w -> exists a b, placed al (w - 2) (length (cells t) + 2) a b /\ seg_cells lft ++ m ++ seg_cells rgt = seg_cells lft ++ repeat f a ++ [sp] ++ cells t ++ [sp] ++ repeat f b ++ seg_cells rgt) /\
    (w < length (cells t) + 6 -> 7 <= w -> exists e, seg_cells lft ++ m ++ seg_cells rgt = seg_cells lft ++ [f; sp] ++ firstn (w - 7) (cells t) ++ [(ellipsis, e, me); sp; f] ++ seg_cells rgt)).
  { intros t al P sp f m. destruct (label_row gw me space ellipsis dash W1 W2 W3 t fill (w - 2) al P Rf) as (_ & L1 & L2). rewrite (plain_len gw t P) in L1, L2. split.
    - intros K. destruct (L1 ltac:(lia)) as (a & b & PL & E). exists a, b. split; [exact PL|]. unfold m. rewrite E. rewrite <- !app_assoc. reflexivity.
    - intros K K7. destruct (L2 ltac:(lia)) as (e & E). exists e. unfold m. rewrite E. replace (w - 2 - 5) with (w - 7) by lia. destruct (Nat.leb_spec 5 (w - 2)); [|lia]. cbn [repeat]. rewrite <- !app_assoc. reflexivity. }
  destruct title as [t|]; [apply K; apply P1; reflexivity|]. destruct sub as [t|]; [apply K; apply P2; reflexivity|]. reflexivity.
Qed.
Theorem C49_border_rows : forall (c : cache) h w content title subtitle, glyphs -> boxes_ok gw c -> plain_opt gw title -> plain_opt gw subtitle -> 3 <= w -> 0 < h ->
  e_left (rc_border c) = true -> e_right (rc_border c) = true -> no_outline c ->
  let '(top, _, bottom) := rc_box c in
  (e_top (rc_border c) = true -> edge_row top w (rc_title_align c) title (cells (line c 0 h w content title subtitle))) /\
  (e_bottom (rc_border c) = true -> (e_top (rc_border c) = true -> 2 <= h) ->
     edge_row bottom w (rc_subtitle_align c) subtitle (cells (line c (h - 1) h w content title subtitle))).
Proof.
  intros c h w content title subtitle Gl [Bx _] P1 P2 Hw Hh EL ER O. rewrite !fold_line by lia. unfold base_row.
  assert (HB : has_border c = true) by (unfold has_border, any_edge; rewrite EL; apply orb_true_r). rewrite HB, EL, ER. cbn [negb andb].
  destruct (rc_box c) as [[top mid] bottom]. destruct Bx as (Bt & _ & Bb).
  assert (PN : plain_opt gw (None : option strip)) by (intros s E; discriminate).
  split.
  - intros ET. rewrite ET. cbn [Nat.eqb andb]. rewrite no_outline_id by exact O. pose proof (edge_row_intro top w title None (rc_title_align c) (rc_subtitle_align c) Gl Bt P1 PN Hw) as K. destruct title; exact K.
  - intros EB H2. rewrite EB. rewrite Nat.eqb_refl. cbn [andb]. assert (X : (h - 1 =? 0) && e_top (rc_border c) = false).
    { destruct (e_top (rc_border c)); [|apply andb_false_r]. rewrite andb_true_r. apply Nat.eqb_neq. specialize (H2 eq_refl). lia. }
    rewrite X. rewrite no_outline_id by exact O. exact (edge_row_intro bottom w None subtitle (rc_title_align c) (rc_subtitle_align c) Gl Bb PN P2 Hw).
Qed.

(** C49. The top and bottom rows of a box without both side borders: a line
    across the whole width, with the label set into it without spaces. *)
Definition open_row (row : @box_row G St Mt) (w : nat) (align : halign) (label : option strip) (r : list cell) : Prop :=
  let '(_, fill, _) := row in
  exists style, let f := (first_or dash fill, Some style, me) in
  (sg_style fill <> None -> sg_style fill = Some style) /\
  match label with
  | None => r = repeat f w
  | Some t =>
      (length (cells t) + 2 <= w -> exists a b, placed align w (length (cells t)) a b /\ r = repeat f a ++ cells t ++ repeat f b) /\
      (w < length (cells t) + 2 -> 3 <= w -> exists e, r = [f] ++ firstn (w - 3) (cells t) ++ [(ellipsis, e, me); f])
  end.
Theorem C49_open_border_rows : forall (c : cache) h w content title subtitle, glyphs -> boxes_ok gw c -> plain_opt gw title -> plain_opt gw subtitle -> 0 < w -> 0 < h ->
  e_left (rc_border c) && e_right (rc_border c) = false -> no_outline c ->
  let '(top, _, bottom) := rc_box c in
  (e_top (rc_border c) = true -> open_row top w (rc_title_align c) title (cells (line c 0 h w content title subtitle))) /\
  (e_bottom (rc_border c) = true -> (e_top (rc_border c) = true -> 2 <= h) ->
     open_row bottom w (rc_subtitle_align c) subtitle (cells (line c (h - 1) h w content title subtitle))).
Proof.
  intros c h w content title subtitle (W1 & W2 & W3) [Bx _] P1 P2 Hw Hh EC O. rewrite !fold_line by lia. unfold base_row. rewrite EC.
  destruct (rc_box c) as [[top mid] bottom]. destruct Bx as (Bt & _ & Bb).
  assert (K : forall row lab al, row_ok gw row -> plain_opt gw lab -> open_row row w al lab (cells (render_horizontal_border_row gw me ellipsis dash sd row w lab al))).
  { intros [[lf fl] rt] lab al R P. destruct (horizontal_row gw me space ellipsis dash sd W1 W2 W3 (lf, fl, rt) w lab al R P) as [_ H]. cbn [fst snd] in H. unfold open_row.
    exists (match sg_style fl with Some x => x | None => sd end). split; [destruct (sg_style fl); [reflexivity|contradiction]|].
    destruct lab as [t|]; [|exact H]. rewrite (plain_len gw t (P t eq_refl)) in H. destruct H as [H1 H2]. split; [exact H1|]. intros A B. destruct (H2 A ltac:(lia)) as (e & E). exists e. rewrite E. destruct (Nat.leb_spec 3 w); [reflexivity|lia]. }
  split.
  - intros ET. assert (HB : has_border c = true) by (unfold has_border, any_edge; rewrite ET; reflexivity). rewrite HB, ET. cbn [negb Nat.eqb andb]. rewrite no_outline_id by exact O. apply K; auto.
  - intros EB H2. assert (HB : has_border c = true) by (unfold has_border, any_edge; rewrite EB; rewrite orb_true_r; reflexivity). rewrite HB, EB, Nat.eqb_refl. cbn [negb andb]. assert (X : (h - 1 =? 0) && e_top (rc_border c) = false).
    { destruct (e_top (rc_border c)); [|apply andb_false_r]. rewrite andb_true_r. apply Nat.eqb_neq. specialize (H2 eq_refl). lia. }
    rewrite X. rewrite no_outline_id by exact O. apply K; auto.
Qed.

(** C49. Boxes with side borders but no top (bottom) border show the title
    (subtitle) on their first (last) row between the side borders. *)
Theorem C49_label_in_box : forall (c : cache) y h w content title subtitle t align, glyphs -> boxes_ok gw c -> plain gw t -> 6 <= w ->
  inside c y h -> sides c = true ->
  (title = Some t /\ align = rc_title_align c /\ y = 0 /\ e_top (rc_border c) = false) \/
  (subtitle = Some t /\ align = rc_subtitle_align c /\ S y = h /\ e_bottom (rc_border c) = false /\ (title = None \/ 0 < y)) ->
  let '(_, (lft, fill, rgt), _) := rc_box c in
  let f := (first_or space fill, sg_style fill, me) in
  let sp := (space, first_style t, me) in
  let n := w - b2n (e_left (rc_border c)) - b2n (e_right (rc_border c)) in
  let r := cells (line c y h w content title subtitle) in
  (length (cells t) + 4 <= n -> exists a b, placed align n (length (cells t) + 2) a b /\
     r = edge_cells (e_left (rc_border c)) lft ++ (repeat f a ++ [sp] ++ cells t ++ [sp] ++ repeat f b) ++ edge_cells (e_right (rc_border c)) rgt) /\
  (n < length (cells t) + 4 -> exists e,
     r = edge_cells (e_left (rc_border c)) lft ++ ([f; sp] ++ firstn (n - 5) (cells t) ++ [(ellipsis, e, me); sp] ++ repeat f (if 5 <=? n then 1 else 0)) ++ edge_cells (e_right (rc_border c)) rgt).
Proof.
  intros c y h w content title subtitle t align (W1 & W2 & W3) [Bx _] P Hw I S L. cbv zeta. assert (Hh : 0 < h) by (unfold inside in I; lia).
  rewrite fold_line by lia. unfold base_row. destruct (inside_border c y h I) as (A1 & A2 & A3). rewrite A1, A2, A3.
  assert (HB : has_border c = true) by (unfold has_border, any_edge; unfold sides in S; destruct (e_left (rc_border c)), (e_right (rc_border c)); try discriminate; rewrite ?orb_true_r; reflexivity).
  rewrite HB. unfold sides in S. rewrite S. cbn [negb].
  assert (RL : row_label c y h title subtitle = Some (t, align)).
  { unfold row_label, border_top, border_bottom. unfold inside in I. destruct L as [(-> & -> & -> & ->)|(-> & -> & E & EB & D)].
    - reflexivity.
    - rewrite EB in *. cbn [negb andb b2n] in *. destruct (Nat.eqb_spec (y + 1) (h - 0)); [|lia].
      assert (X : (if negb (e_top (rc_border c)) && (y =? b2n (e_top (rc_border c))) then title else None) = None).
      { destruct D as [->|D]; [destruct (negb (e_top (rc_border c)) && (y =? b2n (e_top (rc_border c)))); reflexivity|]. destruct (e_top (rc_border c)); cbn [negb andb b2n]; [reflexivity|]. destruct (Nat.eqb_spec y 0); [lia|reflexivity]. }
      rewrite X. reflexivity. }
  rewrite RL. destruct (rc_box c) as [[top [[lft fill] rgt]] bottom]. destruct Bx as (_ & Bm & _).
  destruct (labeled_row gw me space ellipsis dash W1 W2 W3 c (lft, fill, rgt) w t align Bm P) as [_ LR]. cbn [fst snd] in LR. rewrite LR.
  destruct Bm as (_ & Rf & _). replace (w - b2n (e_left (rc_border c)) - b2n (e_right (rc_border c))) with (w - (border_left c + border_right c)) by (unfold border_left, border_right; lia).
  destruct (label_row gw me space ellipsis dash W1 W2 W3 t fill (w - (border_left c + border_right c)) align P Rf) as (_ & L1 & L2). rewrite (plain_len gw t P) in L1, L2. split.
  - intros K. destruct (L1 K) as (a & b & PL & E). exists a, b. split; [exact PL|]. rewrite E. reflexivity.
  - intros K. destruct (L2 K) as (e & E). exists e. rewrite E. reflexivity.
Qed.

Lemma placed_sum : forall al w n a b, placed al w n a b -> a + n + b = w. Proof. intros al w n a b [H _]. exact H. Qed.
Lemma label_len : forall (t : strip) fill w al, glyphs -> plain gw t -> one_cell gw fill -> 4 <= w ->
  length (cells (render_label_in_row gw me space ellipsis t fill w al)) = w.
Proof.
  intros t fill w al (W1 & W2 & W3) P F H. destruct (label_row gw me space ellipsis dash W1 W2 W3 t fill w al P F) as (_ & L1 & L2). rewrite (plain_len gw t P) in L1, L2.
  destruct (Nat.le_gt_cases (length (cells t) + 4) w) as [K|K].
  - destruct (L1 K) as (a & b & PL & ->). apply placed_sum in PL. rewrite !app_length, !repeat_length. cbn [length]. lia.
  - destruct (L2 K) as (e & ->). rewrite !app_length, firstn_length, repeat_length. cbn [length]. destruct (Nat.leb_spec 5 w); lia.
Qed.
Lemma full_len : forall row w (title sub : option strip) ta sa, glyphs -> row_ok gw row -> plain_opt gw title -> plain_opt gw sub -> 1 <= w ->
  (title <> None \/ sub <> None -> 6 <= w) ->
  plain gw (render_row gw me space ellipsis row w title sub ta sa) /\ length (cells (render_row gw me space ellipsis row w title sub ta sa)) = w.
Proof.
  intros [[lf fl] rt] w title sub ta sa Gl R P1 P2 Hw H6. pose proof Gl as (W1 & W2 & W3). destruct (Nat.le_gt_cases 3 w) as [H|H].
  - destruct (full_row gw me space ellipsis dash W1 W2 W3 (lf, fl, rt) w title sub ta sa R P1 P2 H) as [F1 F2]. split; [exact F1|]. rewrite F2. destruct R as (R1 & R2 & R3).
    rewrite !app_length, (one_len gw lf R1), (one_len gw rt R3).
    destruct title as [t|]; [rewrite label_len; auto; specialize (H6 ltac:(left; discriminate)); lia|].
    destruct sub as [t|]; [rewrite label_len; auto; specialize (H6 ltac:(right; discriminate)); lia|]. rewrite repeat_length. lia.
  - destruct (tiny_row gw me space ellipsis dash W1 W2 W3 (lf, fl, rt) w title sub ta sa R ltac:(lia)) as [F1 F2]. split; [exact F1|]. rewrite F2. destruct R as (R1 & R2 & R3).
    rewrite app_length, (one_len gw lf R1). destruct (Nat.eqb_spec w 2); [rewrite (one_len gw rt R3); lia|cbn; lia].
Qed.
Lemma open_len : forall row w (lab : option strip) al, glyphs -> row_ok gw row -> plain_opt gw lab -> 1 <= w -> (lab <> None -> 6 <= w) ->
  plain gw (render_horizontal_border_row gw me ellipsis dash sd row w lab al) /\ length (cells (render_horizontal_border_row gw me ellipsis dash sd row w lab al)) = w.
Proof.
  intros row w lab al (W1 & W2 & W3) R P Hw H6. destruct (horizontal_row gw me space ellipsis dash sd W1 W2 W3 row w lab al R P) as [F1 F2]. split; [exact F1|].
  destruct lab as [t|]; [|rewrite F2, repeat_length; reflexivity]. rewrite (plain_len gw t (P t eq_refl)) in F2. destruct F2 as [F2 F3]. specialize (H6 ltac:(discriminate)). destruct (Nat.le_gt_cases (length (cells t) + 2) w) as [K|K].
  - destruct (F2 K) as (a & b & PL & ->). apply placed_sum in PL. rewrite !app_length, !repeat_length. lia.
  - destruct (F3 K ltac:(lia)) as (e & ->). rewrite !app_length, firstn_length, repeat_length. cbn [length]. destruct (Nat.leb_spec 3 w); lia.
Qed.
Lemma base_len : forall (c : cache) y h w content title subtitle, glyphs -> boxes_ok gw c -> plain_opt gw content -> plain_opt gw title -> plain_opt gw subtitle ->
  fits c w title subtitle -> 0 < w -> y < h ->
  let s := fst (base_row gw me space ellipsis dash sd c y h w content title subtitle) in plain gw s /\ length (cells s) = w.
Proof.
  intros c y h w content title subtitle Gl [Bx _] P P1 P2 (F1 & F2 & F3) Hw Hy. cbv zeta. pose proof Gl as (W1 & W2 & W3). unfold base_row.
  assert (PN : plain_opt gw (None : option strip)) by (intros s E; discriminate).
  destruct (content_row gw me space ellipsis dash W1 W2 W3 c w content P) as [CP CR].
  assert (CL : e_left (rc_border c) = false -> e_right (rc_border c) = false -> length (cells (render_content_row gw me space c w content)) = w).
  { intros _ _. rewrite CR, !app_length, !repeat_length, fit_length. unfold pl, pr. lia. }
  destruct (has_border c) eqn:HB; cbn [negb].
  2:{ cbn [fst]. split; [exact CP|]. unfold has_border, any_edge in HB. apply orb_false_elim in HB. destruct HB as [HB H1]. apply orb_false_elim in HB. destruct HB as [HB _]. apply orb_false_elim in HB. destruct HB as [_ H2]. auto. }
  destruct (rc_box c) as [[top [[lft fill] rgt]] bottom]. destruct Bx as (Bt & Bm & Bb).
  destruct ((y =? 0) && e_top (rc_border c)); cbn [fst].
  { destruct (e_left (rc_border c) && e_right (rc_border c)); [apply full_len|apply open_len]; auto; intros; apply F3; tauto. }
  destruct ((y =? h - 1) && e_bottom (rc_border c)); cbn [fst].
  { destruct (e_left (rc_border c) && e_right (rc_border c)); [apply full_len|apply open_len]; auto; intros; apply F3; tauto. }
  destruct ((border_top c <=? y) && (y <? h - border_bottom c)); cbn [fst].
  2:{ destruct (blank_plain gw me space ellipsis dash W1 W2 W3 w (rc_pad_style c)) as [B1 B2]. split; [exact B1|]. rewrite B2. apply repeat_length. }
  destruct (e_left (rc_border c) || e_right (rc_border c)) eqn:SD.
  2:{ cbn [fst]. split; [exact CP|]. apply orb_false_elim in SD. apply CL; tauto. }
  assert (E1 : length (edge_cells (e_left (rc_border c)) lft) = border_left c) by (apply edge_len with gw; apply Bm).
  assert (E2 : length (edge_cells (e_right (rc_border c)) rgt) = border_right c) by (apply edge_len with gw; apply Bm).
  destruct (row_label c y h title subtitle) as [[t al]|] eqn:RL; cbn [fst].
  - assert (PT : plain gw t /\ 6 <= w).
    { unfold row_label in RL. destruct (negb (e_top (rc_border c)) && (y =? border_top c)).
      - destruct title as [t'|]; [injection RL as <- _; split; [apply P1; reflexivity|apply F3; left; discriminate]|].
        destruct (negb (e_bottom (rc_border c)) && (y + 1 =? h - border_bottom c)); [|discriminate]. destruct subtitle as [t'|]; [|discriminate]. injection RL as <- _. split; [apply P2; reflexivity|apply F3; right; discriminate].
      - destruct (negb (e_bottom (rc_border c)) && (y + 1 =? h - border_bottom c)); [|discriminate]. destruct subtitle as [t'|]; [|discriminate]. injection RL as <- _. split; [apply P2; reflexivity|apply F3; right; discriminate]. }
    destruct PT as [PT H6]. destruct (labeled_row gw me space ellipsis dash W1 W2 W3 c (lft, fill, rgt) w t al Bm PT) as [LP LR]. cbn [fst snd] in LR. split; [exact LP|]. rewrite LR, !app_length, E1. rewrite E2.
    unfold border_left, border_right in *. destruct Bm as (_ & Rf & _). rewrite label_len; auto; destruct (e_left (rc_border c)), (e_right (rc_border c)); cbn [b2n] in *; lia.
  - destruct (partial_row gw me space ellipsis dash W1 W2 W3 c (lft, fill, rgt) w content Bm P) as [LP LR]. cbn [fst snd] in LR. split; [exact LP|]. rewrite LR. unfold Strip_Spec.cell in *. rewrite !app_length, E1, E2, !repeat_length. pose proof (fit_length _ _ _ (w - (border_left c + border_right c) - (pl c + pr c)) (space, rc_pad_style c, me) (cells_opt content)) as FL. unfold Strip_Spec.cell in FL. rewrite FL. unfold border_left, border_right, pl, pr in *. lia.
Qed.

(** C49. With an outline: the top and bottom rows are the outline's, and on the
    other rows it replaces the first and last cell. *)
Theorem C49_outline : forall (c : cache) y h w content title subtitle, glyphs -> boxes_ok gw c -> plain_opt gw content -> plain_opt gw title -> plain_opt gw subtitle ->
  fits c w title subtitle -> 0 < w -> y < h -> (inside c y h -> no_label c y h title subtitle) ->
  let under := cells (line (without_outline c) y h w content title subtitle) in
  let '((tl, tf, tr), (ml, _, mr), (bl, bf, br)) := rc_outline_box c in
  let L := e_left (rc_outline c) in let R := e_right (rc_outline c) in
  let inner := w - b2n L - b2n R in
  cells (line c y h w content title subtitle) =
    if (y =? 0) && e_top (rc_outline c) then
      edge_cells L tl ++ repeat (first_or dash tf, or_default sd (sg_style tf), me) inner ++ edge_cells R tr
    else if (y =? h - 1) && e_bottom (rc_outline c) then
      edge_cells L bl ++ repeat (first_or dash bf, or_default sd (sg_style bf), me) inner ++ edge_cells R br
    else edge_cells L ml ++ firstn inner (skipn (b2n L) under) ++ edge_cells R mr.
Proof.
  intros c y h w content title subtitle Gl BO P P1 P2 F Hw Hy NL. pose proof Gl as (W1 & W2 & W3).
  destruct (base_len c y h w content title subtitle Gl BO P P1 P2 F Hw Hy) as [BP BL]. destruct BO as [Bx Ox].
  rewrite !fold_line by lia. assert (ND : snd (base_row gw me space ellipsis dash sd c y h w content title subtitle) = false).
  { unfold base_row. destruct (has_border c); [|reflexivity]. cbn [negb]. destruct (rc_box c) as [[top mid] bottom].
    destruct ((y =? 0) && e_top (rc_border c)) eqn:A1; [reflexivity|]. destruct ((y =? h - 1) && e_bottom (rc_border c)) eqn:A2; [reflexivity|]. destruct ((border_top c <=? y) && (y <? h - border_bottom c)) eqn:A3; [|reflexivity].
    destruct (e_left (rc_border c) || e_right (rc_border c)) eqn:SD; [|reflexivity]. apply andb_true_iff in A3. destruct A3 as [A3 A4]. apply Nat.leb_le in A3. apply Nat.ltb_lt in A4.
    assert (I : inside c y h) by (split; assumption). rewrite inside_label; auto. }
  assert (SB : base_row gw me space ellipsis dash sd (without_outline c) y h w content title subtitle = base_row gw me space ellipsis dash sd c y h w content title subtitle) by reflexivity.
  rewrite SB. destruct (base_row gw me space ellipsis dash sd c y h w content title subtitle) as [s d]. cbn [fst snd] in *. subst d. rewrite (no_outline_id (without_outline c)) by reflexivity.
  destruct F as (_ & F2 & _). unfold apply_outline, has_outline, any_edge. destruct (Nat.eqb_spec w 0); [lia|]. destruct (Nat.eqb_spec h 0); [lia|]. rewrite !orb_false_r.
  destruct (rc_outline_box c) as [[[[tl tf] tr] [[ml mf] mr]] [[bl bf] br]]. destruct Ox as (Ot & Om & Ob).
  rewrite !Nat.sub_add_distr in *.
  pose proof (outline_row gw me space ellipsis dash sd W1 W2 W3 c _ w Ot) as [_ Q1]. pose proof (outline_row gw me space ellipsis dash sd W1 W2 W3 c _ w Ob) as [_ Q2]. rewrite Nat.sub_add_distr in Q1, Q2.
  destruct (e_top (rc_outline c) || e_right (rc_outline c) || e_bottom (rc_outline c) || e_left (rc_outline c)) eqn:A; cbn [negb].
  - destruct ((y =? 0) && e_top (rc_outline c)); [exact Q1|]. destruct ((y =? h - 1) && e_bottom (rc_outline c)); [exact Q2|].
    destruct (e_left (rc_outline c) || e_right (rc_outline c)) eqn:SD.
    + rewrite from_segments_cells, !flat_map_app, !when_cells. f_equal. f_equal. set (lw := b2n (e_left (rc_outline c))). set (inn := w - lw - b2n (e_right (rc_outline c))) in *.
      destruct (crop_plain gw s lw (lw + inn) BP) as [CP CC]. destruct (adjust_plain gw me space ellipsis dash W1 W2 W3 (crop gw s lw (lw + inn)) inn (rc_pad_style c) CP) as [_ AC]. fold (cells (adjust_cell_length gw me space (crop gw s lw (lw + inn)) inn (rc_pad_style c))). rewrite AC, CC.
      replace (lw + inn - lw) with inn by lia. unfold fit. rewrite firstn_firstn, Nat.min_id. rewrite firstn_length, skipn_length, BL. replace (inn - Nat.min inn (w - lw)) with 0 by lia. cbn [repeat]. apply app_nil_r.
    + apply orb_false_elim in SD. destruct SD as [-> ->]. cbn [b2n edge_cells app skipn]. rewrite !Nat.sub_0_r, app_nil_r. rewrite firstn_all2 by lia. reflexivity.
  - apply orb_false_elim in A. destruct A as [A ->]. apply orb_false_elim in A. destruct A as [A ->]. apply orb_false_elim in A. destruct A as [-> ->]. rewrite !andb_false_r. cbn [b2n edge_cells app skipn]. rewrite !Nat.sub_0_r, app_nil_r. rewrite firstn_all2 by lia. reflexivity.
Qed.

(** C49. Every row has exactly the requested width. *)
Theorem C49_width : forall (c : cache) y h w content title subtitle, glyphs -> boxes_ok gw c -> plain_opt gw content -> plain_opt gw title -> plain_opt gw subtitle ->
  fits c w title subtitle -> 0 < w -> y < h ->
  let r := line c y h w content title subtitle in
  st_len r = w /\ length (cells r) = w /\ strip_ok gw r /\ all_narrow gw (cells r).
Proof.
  intros c y h w content title subtitle Gl BO P P1 P2 F Hw Hy r. pose proof Gl as (W1 & W2 & W3).
  destruct (base_len c y h w content title subtitle Gl BO P P1 P2 F Hw Hy) as [BP BL].
  assert (K : plain gw r /\ length (cells r) = w).
  { subst r. rewrite fold_line by lia. destruct (base_row gw me space ellipsis dash sd c y h w content title subtitle) as [s d] eqn:EB. cbn [fst] in *. destruct d; [split; assumption|].
    split; [apply outlined_plain with (ellipsis := ellipsis); auto; apply BO|].
    destruct F as (_ & F2 & _). destruct BO as [_ Ox]. unfold apply_outline, has_outline, any_edge. destruct (Nat.eqb_spec w 0); [lia|]. destruct (Nat.eqb_spec h 0); [lia|]. rewrite !orb_false_r.
    destruct (rc_outline_box c) as [[[[tl tf] tr] [[ml mf] mr]] [[bl bf] br]]. destruct Ox as (Ot & Om & Ob).
    pose proof (outline_row gw me space ellipsis dash sd W1 W2 W3 c _ w Ot) as [_ Q1]. pose proof (outline_row gw me space ellipsis dash sd W1 W2 W3 c _ w Ob) as [_ Q2].
    destruct (negb _); [exact BL|].
    destruct ((y =? 0) && e_top (rc_outline c)). { rewrite Q1, !app_length, repeat_length. destruct Ot as (O1 & _ & O3). rewrite (edge_len gw _ tl O1), (edge_len gw _ tr O3). lia. }
    destruct ((y =? h - 1) && e_bottom (rc_outline c)). { rewrite Q2, !app_length, repeat_length. destruct Ob as (O1 & _ & O3). rewrite (edge_len gw _ bl O1), (edge_len gw _ br O3). lia. }
    destruct (e_left (rc_outline c) || e_right (rc_outline c)); [|exact BL].
    rewrite from_segments_cells, !flat_map_app, !when_cells, !app_length. destruct Om as (O1 & _ & O3). rewrite (edge_len gw _ ml O1), (edge_len gw _ mr O3).
    match goal with |- context [flat_map seg_cells (st_segs ?x)] => fold (cells x) end.
    match goal with |- context [adjust_cell_length gw me space ?x ?n ?p] => destruct (crop_plain gw s (b2n (e_left (rc_outline c))) (b2n (e_left (rc_outline c)) + n) BP) as [CP _]; destruct (adjust_plain gw me space ellipsis dash W1 W2 W3 x n p CP) as [_ AC]; rewrite AC end.
    rewrite fit_length. lia. }
  destruct K as [[O N] L]. rewrite (plain_len gw r (conj O N)). auto.
Qed.
End Props.
Print Assumptions C49_content_row.
Print Assumptions C49_border_rows.
Print Assumptions C49_open_border_rows.
Print Assumptions C49_label_in_box.
Print Assumptions C49_outline.
Print Assumptions C49_width.

(** Concrete boxes: cluster 0 is a space, 1 the ellipsis, 2 the dash, 9 is a
    wide character; the border glyphs are 3 (corner), 4 (line), 5 (side). *)
Definition xw (g : nat) : nat := if g =? 9 then 2 else 1.
Definition xseg (g : nat) : @segment nat nat nat := Segment [g] 1 (Some 7) 0.
Definition xbox := ((xseg 3, xseg 4, xseg 3), (xseg 5, xseg 0, xseg 5), (xseg 3, xseg 4, xseg 3)).
Definition xcache border outline (padding : edges nat) : @cache nat nat nat := cache_new border outline padding xbox xbox HLeft HRight None.
Definition all_edges (k : kind) : edges kind := Edges k k k k.
Definition no_padding : edges nat := Edges 0 0 0 0.
Definition xtext (t : list nat) : @strip nat nat nat := from_segment (segment_new xw 0 t None).
Definition glyphs_of (s : @strip nat nat nat) : list nat := map (fun c => fst (fst c)) (cells s).
Definition xline := @render_line nat nat nat xw 0 0 1 2 0.

Lemma xboxes_ok : forall border outline padding, boxes_ok xw (xcache border outline padding).
Proof. intros. split; cbn; repeat split; eexists; repeat split. Qed.
Lemma xglyphs : glyphs xw 0 1 2. Proof. repeat split. Qed.
Lemma xplain : forall t, (forall g, In g t -> g <> 9) -> plain xw (xtext t).
Proof.
  intros t H. unfold xtext. assert (N : Forall (fun g => xw g = 1) t).
  { apply Forall_forall. intros g I. unfold xw. destruct (Nat.eqb_spec g 9); [destruct (H g I); assumption|reflexivity]. }
  split; [split; [repeat constructor|]|].
  - cbn. rewrite app_nil_r. symmetry. apply (CW_seg xw (segment_new xw 0 t None)).
  - cbn. rewrite app_nil_r. apply Forall_map. exact N.
Qed.

(** A box of 10 columns with a title, padding, content and an outline. *)
Example C49_nonvacuous :
  let c := xcache (all_edges KRound) (all_edges KNone) (Edges 0 1 0 1) in
  fits c 10 (Some (xtext [6; 6])) None /\ inside c 1 3 /\ no_label c 1 3 (Some (xtext [6; 6])) None /\
  glyphs_of (xline c 0 3 10 None (Some (xtext [6; 6])) None) = [3; 4; 0; 6; 6; 0; 4; 4; 4; 3] /\
  glyphs_of (xline c 1 3 10 (Some (xtext [8; 8; 8])) (Some (xtext [6; 6])) None) = [5; 0; 8; 8; 8; 0; 0; 0; 0; 5] /\
  glyphs_of (xline c 2 3 10 None (Some (xtext [6; 6])) (Some (xtext [6; 6; 6; 6; 6]))) = [3; 4; 0; 6; 6; 6; 1; 0; 4; 3].
Proof. cbv zeta. split; [split; [cbn; lia|split; [cbn; lia|intros; lia]]|]. split; [split; cbn; lia|]. split; [split; cbn; intros; try discriminate|]. repeat split. Qed.
Example C49_outline_nonvacuous :
  let c := xcache (all_edges KNone) (all_edges KRound) no_padding in
  fits c 5 None None /\ glyphs_of (xline c 1 3 5 (Some (xtext [8; 8; 8; 8; 8])) None None) = [5; 8; 8; 8; 5] /\ glyphs_of (xline c 0 3 5 (Some (xtext [8; 8; 8; 8; 8])) None None) = [3; 4; 4; 4; 3].
Proof. cbv zeta. split; [split; [cbn; lia|split; [cbn; lia|intros [H|H]; contradiction]]|]. split; reflexivity. Qed.
Example C49_label_nonvacuous :
  let c := xcache (all_edges KVkey) (all_edges KNone) no_padding in
  inside c 0 2 /\ sides c = true /\ glyphs_of (xline c 0 2 9 None (Some (xtext [6; 6])) None) = [5; 0; 0; 6; 6; 0; 0; 0; 5].
Proof. cbv zeta. split; [split; cbn; lia|]. split; reflexivity. Qed.
Example C49_open_nonvacuous :
  let c := xcache (all_edges KHkey) (all_edges KNone) no_padding in
  glyphs_of (xline c 0 2 5 None (Some (xtext [6; 6])) None) = [4; 6; 6; 4; 4] /\ glyphs_of (xline c 0 2 5 None (Some (xtext [6; 6; 6; 6])) None) = [4; 6; 6; 1; 4].
Proof. split; reflexivity. Qed.

(** Without the conditions rows get too wide: padding that does not fit, ... *)
Theorem C49_padding_refuted : exists c : @cache nat nat nat, boxes_ok xw c /\ forall y, y < 2 -> 4 < st_len (xline c y 2 4 None None None).
Proof.
  exists (xcache (all_edges KNone) (all_edges KNone) (Edges 0 3 0 3)). split; [apply xboxes_ok|]. intros y H. unfold xline, render_line. cbn [Nat.eqb orb]. cbn. lia.
Qed.
(** ... a label in a box of five columns, ... *)
Theorem C49_narrow_label_refuted : exists (c : @cache nat nat nat) t, boxes_ok xw c /\ plain xw t /\ st_len (xline c 0 3 5 None (Some t) None) = 6.
Proof. exists (xcache (all_edges KRound) (all_edges KNone) no_padding), (xtext [6]). split; [apply xboxes_ok|]. split; [apply xplain; intros g [<-|[]]; discriminate|reflexivity]. Qed.
(** ... a wide character across the right end of the content, ... *)
Theorem C49_wide_refuted : exists (c : @cache nat nat nat) t, boxes_ok xw c /\ strip_ok xw t /\ fits c 4 None None /\ st_len (xline c 1 3 4 (Some t) None None) = 5.
Proof.
  exists (xcache (all_edges KRound) (all_edges KNone) no_padding), (xtext [8; 9]). split; [apply xboxes_ok|]. split; [split; [repeat constructor|reflexivity]|]. split; [split; [cbn; lia|split; [cbn; lia|intros [H|H]; contradiction]]|reflexivity].
Qed.
(** ... an outline in one column. *)
Theorem C49_narrow_outline_refuted : exists c : @cache nat nat nat, boxes_ok xw c /\ st_len (xline c 0 3 1 None None None) = 2.
Proof. exists (xcache (all_edges KNone) (all_edges KRound) no_padding). split; [apply xboxes_ok|reflexivity]. Qed.
(** A row that shows a label between side borders is drawn without the outline. *)
Theorem C49_label_hides_outline_refuted : exists (c : @cache nat nat nat) t, boxes_ok xw c /\ any_edge (rc_outline c) = true /\
  xline c 0 3 9 None (Some t) None = xline (without_outline c) 0 3 9 None (Some t) None.
Proof. exists (xcache (all_edges KVkey) (all_edges KRound) no_padding), (xtext [6]). split; [apply xboxes_ok|]. split; reflexivity. Qed.
(** The room announced to the content is the room its rows are drawn in: what
    the borders shown and the padding leave of the width and the height. *)
Theorem C49_inner_size : forall (G St Mt : Type) (c : @cache G St Mt) w h, let '(iw, ih) := inner_size c w h in
  let bl := b2n (e_left (rc_border c)) in let br := b2n (e_right (rc_border c)) in
  let bt := b2n (e_top (rc_border c)) in let bb := b2n (e_bottom (rc_border c)) in
  (bl + br + e_left (rc_padding c) + e_right (rc_padding c) <= w -> bl + e_left (rc_padding c) + iw + e_right (rc_padding c) + br = w) /\
  (w <= bl + br + e_left (rc_padding c) + e_right (rc_padding c) -> iw = 0) /\
  (bt + bb + e_top (rc_padding c) + e_bottom (rc_padding c) <= h -> bt + e_top (rc_padding c) + ih + e_bottom (rc_padding c) + bb = h) /\
  (h <= bt + bb + e_top (rc_padding c) + e_bottom (rc_padding c) -> ih = 0).
Proof. intros G St Mt c w h. unfold inner_size, border_left, border_right, border_top, border_bottom, pl, pr. cbv zeta. lia. Qed.
Print Assumptions C49_inner_size.
(** Each edge is shown according to its own kind: "none" and "hidden" are not
    shown, horizontal keys only above and below, vertical keys only beside. *)
Theorem C49_edges_shown : forall (G St Mt : Type) (border outline : edges kind) padding bx ox ta sa pad,
  let c := @cache_new G St Mt border outline padding bx ox ta sa pad in
  (e_top (rc_border c) = true <-> ~ In (e_top border) [KNone; KHidden; KVkey]) /\
  (e_bottom (rc_border c) = true <-> ~ In (e_bottom border) [KNone; KHidden; KVkey]) /\
  (e_left (rc_border c) = true <-> ~ In (e_left border) [KNone; KHidden; KHkey]) /\
  (e_right (rc_border c) = true <-> ~ In (e_right border) [KNone; KHidden; KHkey]) /\
  (e_top (rc_outline c) = true <-> ~ In (e_top outline) [KNone; KHidden; KVkey]) /\
  (e_bottom (rc_outline c) = true <-> ~ In (e_bottom outline) [KNone; KHidden; KVkey]) /\
  (e_left (rc_outline c) = true <-> ~ In (e_left outline) [KNone; KHidden; KHkey]) /\
  (e_right (rc_outline c) = true <-> ~ In (e_right outline) [KNone; KHidden; KHkey]).
Proof.
  intros G St Mt [b1 b2 b3 b4] [o1 o2 o3 o4] padding bx ox ta sa pad. cbn [cache_new visible_edges rc_border rc_outline e_top e_right e_bottom e_left].
  assert (H : forall k, shown_h k = true <-> ~ In k [KNone; KHidden; KVkey]) by (intros []; cbn; split; intros H; try discriminate; auto; try (intros [K|[K|[K|[]]]]; discriminate); exfalso; apply H; auto).
  assert (V : forall k, shown_v k = true <-> ~ In k [KNone; KHidden; KHkey]) by (intros []; cbn; split; intros K; try discriminate; auto; try (intros [L|[L|[L|[]]]]; discriminate); exfalso; apply K; auto).
  repeat split; (apply H || apply V).
Qed.
Print Assumptions C49_edges_shown.
Example C49_edges_ex : let c := @cache_new nat nat nat (Edges KSolid KHkey KVkey KTall) (Edges KNone KNone KNone KNone) (Edges 1 2 0 3) (rc_box (xcache (all_edges KNone) (all_edges KNone) no_padding)) (rc_box (xcache (all_edges KNone) (all_edges KNone) no_padding)) HLeft HLeft None in
  inner_size c 20 10 = (14, 8) /\ rc_border c = Edges true false false true.
Proof. split; reflexivity. Qed.
Print Assumptions C49_padding_refuted.
Print Assumptions C49_narrow_label_refuted.
Print Assumptions C49_wide_refuted.
Print Assumptions C49_narrow_outline_refuted.
Print Assumptions C49_label_hides_outline_refuted.
