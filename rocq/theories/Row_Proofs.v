From Coq Require Import List Arith Bool Lia.
From Verif Require Import Strip_Model Strip_Spec Strip_Proofs Row_Model Row_Spec.
Import ListNotations.

Lemma fit_length : forall (G St Mt : Type) n (p : @cell G St Mt) k, length (fit n p k) = n.
Proof. intros. unfold fit. rewrite app_length, firstn_length, repeat_length. lia. Qed.

Section P.
Context {G St Mt : Type}.
Variable gw : G -> nat.
Variable me : Mt.
Variables space ellipsis dash : G.
Variable sd : St.
Hypothesis Wsp : gw space = 1.
Hypothesis Wel : gw ellipsis = 1.
Hypothesis Wda : gw dash = 1.
Notation segment := (@segment G St Mt).
Notation strip := (@strip G St Mt).
Notation cell := (@cell G St Mt).
Notation new_seg := (@segment_new G St Mt gw me).
Notation blank_seg := (@segment_blank G St Mt me space).
Notation plain := (@plain G St Mt gw).
Implicit Types (s : strip) (l : list segment) (x : segment).

Definition pseg x : Prop := seg_ok gw x /\ all_narrow gw (seg_cells x).
Lemma narrow_app : forall a b : list cell, all_narrow gw (a ++ b) <-> all_narrow gw a /\ all_narrow gw b.
Proof. intros. apply Forall_app. Qed.
Lemma plain_segs : forall s, plain s -> Forall pseg (st_segs s).
Proof.
  intros s [[O _] N]. unfold cells in N. induction (st_segs s) as [|x l IH]; constructor.
  - inversion O; subst. split; auto. cbn in N. apply narrow_app in N. tauto.
  - inversion O; subst. apply IH; auto. cbn in N. apply narrow_app in N. tauto.
Qed.
Lemma plain_from : forall l, Forall pseg l -> plain (from_segments l).
Proof.
  intros l H. split.
  - apply from_segments_ok. eapply Forall_impl; [|exact H]. intros x [O _]. exact O.
  - rewrite from_segments_cells. induction H as [|x l [_ N] _ IH]; [constructor|]. cbn. apply narrow_app. auto.
Qed.
Lemma plain_len : forall s, plain s -> st_len s = length (cells s).
Proof. intros s [[_ E] N]. rewrite E. apply narrow_width. exact N. Qed.
Lemma from_segment_from : forall x, from_segment x = from_segments [x].
Proof. intros. unfold from_segment, from_segments. cbn. f_equal. lia. Qed.
Lemma strip_new_from : @strip_new G St Mt = from_segments [].
Proof. reflexivity. Qed.
Lemma rebuilt : forall s, plain s -> cells (from_segments (st_segs s)) = cells s.
Proof. intros. rewrite from_segments_cells. reflexivity. Qed.

Lemma new_narrow : forall t st, Forall (fun g => gw g = 1) t -> pseg (new_seg t st).
Proof.
  intros t st H. split; [reflexivity|]. unfold all_narrow, seg_cells, segment_new. cbn. apply Forall_map. exact H.
Qed.
Lemma new_cells : forall t st, seg_cells (new_seg t st) = map (fun g => (g, st, me)) t.
Proof. reflexivity. Qed.
Lemma rep_cells : forall g n st, seg_cells (new_seg (repeat g n) st) = repeat (g, st, me) n.
Proof. intros. rewrite new_cells. apply map_repeat_. Qed.
Lemma rep_narrow : forall g n st, gw g = 1 -> pseg (new_seg (repeat g n) st).
Proof. intros. apply new_narrow. apply Forall_forall. intros y I. apply repeat_spec in I. congruence. Qed.
Lemma blank_pseg : forall n st, pseg (blank_seg n st).
Proof.
  intros. split; [apply blank_ok; exact Wsp|]. rewrite blank_cells. apply Forall_forall. intros y I. apply repeat_spec in I. subst. exact Wsp.
Qed.
Lemma when_pos_cells : forall n x (c : cell), seg_cells x = repeat c n -> flat_map seg_cells (when_pos n x) = repeat c n.
Proof. intros n x c E. unfold when_pos. destruct n; cbn; [reflexivity|]. rewrite app_nil_r. exact E. Qed.
Lemma when_pos_pseg : forall n x, pseg x -> Forall pseg (when_pos n x).
Proof. intros. unfold when_pos. destruct (0 <? n); auto. Qed.
Lemma when_cells : forall b x, flat_map seg_cells (when b x) = edge_cells b x.
Proof. intros [] x; cbn; rewrite ?app_nil_r; reflexivity. Qed.
Lemma when_pseg : forall b x, pseg x -> Forall pseg (when b x).
Proof. intros [] x H; cbn; auto. Qed.
Lemma one_pseg : forall x, one_cell gw x -> pseg x.
Proof. intros x (g & E & W & L). split; [unfold seg_ok; rewrite E, L; cbn; lia|]. unfold all_narrow, seg_cells. rewrite E. repeat constructor. exact W. Qed.
Lemma one_len : forall x, one_cell gw x -> length (seg_cells x) = 1.
Proof. intros x (g & E & _). unfold seg_cells. rewrite E. reflexivity. Qed.
Lemma edge_len : forall b x, one_cell gw x -> length (edge_cells b x) = b2n b.
Proof. intros [] x H; [apply one_len; exact H|reflexivity]. Qed.
Lemma one_first : forall d x, one_cell gw x -> gw (first_or d x) = 1 /\ seg_cells x = [(first_or d x, sg_style x, sg_meta x)].
Proof. intros d x (g & E & W & _). unfold first_or, seg_cells. rewrite E. auto. Qed.

Lemma blank_plain : forall n st, plain (@strip_blank G St Mt me space n st) /\ cells (@strip_blank G St Mt me space n st) = repeat (space, st, me) n.
Proof.
  intros n st. unfold strip_blank. destruct (Nat.eqb_spec n 0) as [->|N].
  - split; [|reflexivity]. rewrite strip_new_from. apply plain_from. constructor.
  - rewrite from_segment_from. split; [apply plain_from; auto using blank_pseg|]. rewrite from_segments_cells. cbn [flat_map]. rewrite app_nil_r. apply blank_cells.
Qed.
Lemma crop_plain : forall s a b, plain s -> plain (crop gw s a b) /\ cells (crop gw s a b) = firstn (b - a) (skipn a (cells s)).
Proof.
  intros s a b [O N]. pose proof (crop_narrow gw s a b O N) as E. split; [|exact E]. split; [apply crop_strip_ok; exact O|]. rewrite E. apply narrow_firstn, narrow_skipn, N.
Qed.
Lemma adjust_plain : forall s n st, plain s -> plain (adjust_cell_length gw me space s n st) /\ cells (adjust_cell_length gw me space s n st) = fit n (space, st, me) (cells s).
Proof.
  intros s n st P. pose proof (plain_len s P) as L. unfold adjust_cell_length, fit. destruct (Nat.eqb_spec (st_len s) n) as [E|E].
  - split; [exact P|]. rewrite firstn_all2 by lia. replace (n - length (cells s)) with 0 by lia. cbn. rewrite app_nil_r. reflexivity.
  - destruct (Nat.ltb_spec n (st_len s)) as [F|F].
    + destruct (crop_plain s 0 n P) as [A B]. split; [exact A|]. rewrite B. rewrite Nat.sub_0_r. replace (n - length (cells s)) with 0 by lia. cbn. rewrite app_nil_r. reflexivity.
    + split.
      * apply plain_from. apply Forall_app. split; [apply plain_segs; exact P|auto using blank_pseg].
      * rewrite from_segments_cells, flat_map_app. cbn [flat_map]. rewrite app_nil_r, blank_cells. fold (cells s). rewrite firstn_all2 by lia. rewrite L. reflexivity.
Qed.
Lemma fit_nil : forall n (p : cell), fit n p [] = repeat p n.
Proof. intros. unfold fit. rewrite firstn_nil. cbn. rewrite Nat.sub_0_r. reflexivity. Qed.

(** Labels *)

Lemma label_padding_placed : forall align w n, 2 <= w - n -> n <= w -> let '(a, b) := label_padding align (w - n) in placed align w n a b.
Proof.
  intros align w n H L. unfold label_padding, placed. destruct align.
  - lia.
  - pose proof (Nat.div_mod_eq (w - n) 2). pose proof (Nat.mod_upper_bound (w - n) 2). lia.
  - lia.
Qed.

Lemma rcs_pseg : forall x n, one_cell gw x -> pseg (repeat_char_segment gw me space x n).
Proof. intros x n H. unfold repeat_char_segment. destruct (n =? 0); [apply new_narrow; constructor|apply rep_narrow, one_first, H]. Qed.
Lemma rcs_cells : forall x n, one_cell gw x -> seg_cells (repeat_char_segment gw me space x n) = repeat (first_or space x, sg_style x, me) n.
Proof. intros x n H. unfold repeat_char_segment. destruct (Nat.eqb_spec n 0) as [->|N]; [reflexivity|]. apply rep_cells. Qed.

Lemma label_row : forall label fill w align, plain label -> one_cell gw fill ->
  let r := render_label_in_row gw me space ellipsis label fill w align in
  let f := (first_or space fill, sg_style fill, me) in
  let sp := (space, first_style label, me) in
  plain r /\
  (st_len label + 4 <= w -> exists a b, placed align w (st_len label + 2) a b /\ cells r = repeat f a ++ [sp] ++ cells label ++ [sp] ++ repeat f b) /\
  (w < st_len label + 4 -> exists e, cells r = [f; sp] ++ firstn (w - 5) (cells label) ++ [(ellipsis, e, me); sp] ++ repeat f (if 5 <=? w then 1 else 0)).
Proof.
  intros label fill w align P F r f sp. pose proof (plain_len label P) as L.
  assert (SP : pseg (new_seg [space] (first_style label))) by (apply new_narrow; auto).
  subst r. unfold render_label_in_row. cbv zeta. destruct (Nat.ltb_spec (w - 2) (st_len label + 2)) as [H|H].
  - destruct (crop_plain label 0 (w - 2 - 3) P) as [CP CC]. rewrite Nat.sub_0_r in CC. cbn [skipn] in CC. replace (w - 2 - 3) with (w - 5) in * by lia.
    pose proof (plain_len _ CP) as CL. rewrite CC, firstn_length in CL. set (cr := crop gw label 0 (w - 5)) in *.
    split; [|split].
    + apply plain_from. rewrite !Forall_app. split; [|split; [|split]].
      * constructor; [apply rcs_pseg, F|]. constructor; [exact SP|constructor].
      * apply plain_segs, CP.
      * constructor; [apply new_narrow; auto|]. constructor; [exact SP|constructor].
      * apply when_pos_pseg, rcs_pseg, F.
    + intros K. lia.
    + intros K. exists (last_style cr). rewrite from_segments_cells, !flat_map_app. cbn [flat_map]. rewrite !app_nil_r, rcs_cells by exact F. fold (cells cr). rewrite CC. cbn [repeat app].
      rewrite (when_pos_cells _ _ f) by (apply rcs_cells; exact F). unfold seg_cells at 1 2 3. cbn [segment_new sg_text sg_style sg_meta map app].
      unfold sp. do 2 f_equal. f_equal. do 2 f_equal. f_equal. destruct (Nat.leb_spec 5 w); lia.
  - assert (KL : 2 <= w - (st_len label + 2)) by lia. pose proof (label_padding_placed align w (st_len label + 2) KL) as PL.
    destruct (label_padding align (w - (st_len label + 2))) as [a b]. specialize (PL ltac:(lia)). split; [|split].
    + apply plain_from. rewrite !Forall_app. split; [apply when_pos_pseg, rcs_pseg, F|]. split; [constructor; [exact SP|constructor]|]. split; [apply plain_segs; exact P|]. split; [constructor; [exact SP|constructor]|]. apply when_pos_pseg, rcs_pseg, F.
    + intros _. exists a, b. split; [exact PL|]. rewrite from_segments_cells, !flat_map_app. rewrite !(when_pos_cells _ _ f) by (apply rcs_cells; exact F). cbn [flat_map]. rewrite !app_nil_r. fold (cells label). reflexivity.
    + intros K. lia.
Qed.

Notation cache := (@cache G St Mt).
Section C.
Variable c : cache.
Hypothesis Bx : box_ok gw (rc_box c).
Hypothesis Ox : box_ok gw (rc_outline_box c).
Notation pad := (space, rc_pad_style c, me).

Lemma cob_plain : forall w o, plain_opt gw o ->
  plain (content_or_blank gw me space c w o) /\ cells (content_or_blank gw me space c w o) = fit w pad (cells_opt o).
Proof.
  intros w [s|] P; cbn [content_or_blank cells_opt].
  - apply adjust_plain. apply P. reflexivity.
  - rewrite fit_nil. apply blank_plain.
Qed.
Lemma content_row : forall w o, plain_opt gw o -> let r := render_content_row gw me space c w o in
  plain r /\ cells r = repeat pad (pl c) ++ fit (w - (pl c + pr c)) pad (cells_opt o) ++ repeat pad (pr c).
Proof.
  intros w o P r. subst r. unfold render_content_row. cbv zeta. destruct (cob_plain (w - (pl c + pr c)) o P) as [CP CC].
  destruct (Nat.eqb_spec (pl c) 0) as [E|E]; [destruct (Nat.eqb_spec (pr c) 0) as [E'|E']|]; cbn [andb].
  - split; [exact CP|]. rewrite CC, E, E'. cbn. rewrite app_nil_r. reflexivity.
  - split; [apply plain_from; rewrite !Forall_app; split; [apply when_pos_pseg, blank_pseg|split; [apply plain_segs, CP|apply when_pos_pseg, blank_pseg]]|].
    rewrite from_segments_cells, !flat_map_app. rewrite !(when_pos_cells _ _ pad) by apply blank_cells. fold (cells (content_or_blank gw me space c (w - (pl c + pr c)) o)). rewrite CC. reflexivity.
  - split; [apply plain_from; rewrite !Forall_app; split; [apply when_pos_pseg, blank_pseg|split; [apply plain_segs, CP|apply when_pos_pseg, blank_pseg]]|].
    rewrite from_segments_cells, !flat_map_app. rewrite !(when_pos_cells _ _ pad) by apply blank_cells. fold (cells (content_or_blank gw me space c (w - (pl c + pr c)) o)). rewrite CC. reflexivity.
Qed.
Lemma partial_row : forall row w o, row_ok gw row -> plain_opt gw o -> let r := render_partial_middle_row gw me space c row o w in
  plain r /\ cells r = edge_cells (e_left (rc_border c)) (fst (fst row)) ++ repeat pad (pl c) ++
    fit (w - (border_left c + border_right c) - (pl c + pr c)) pad (cells_opt o) ++ repeat pad (pr c) ++ edge_cells (e_right (rc_border c)) (snd row).
Proof.
  intros [[lf fl] rt] w o (Rl & Rf & Rr) P r. subst r. unfold render_partial_middle_row. cbv zeta. cbn [fst snd].
  set (n := w - (border_left c + border_right c) - (pl c + pr c)). destruct (cob_plain n o P) as [CP CC]. split.
  - apply plain_from. rewrite !Forall_app. repeat match goal with |- _ /\ _ => split end; auto using when_pseg, when_pos_pseg, one_pseg, plain_segs, blank_pseg.
  - rewrite from_segments_cells, !flat_map_app, !when_cells. rewrite !(when_pos_cells _ _ pad) by apply blank_cells. fold (cells (content_or_blank gw me space c n o)). rewrite CC. reflexivity.
Qed.
Lemma labeled_row : forall row w label align, row_ok gw row -> plain label ->
  let m := render_label_in_row gw me space ellipsis label (snd (fst row)) (w - (border_left c + border_right c)) align in
  let r := render_labeled_middle_row gw me space ellipsis c row w label align in
  plain r /\ cells r = edge_cells (e_left (rc_border c)) (fst (fst row)) ++ cells m ++ edge_cells (e_right (rc_border c)) (snd row).
Proof.
  intros [[lf fl] rt] w label align (Rl & Rf & Rr) P m r. subst r. unfold render_labeled_middle_row. cbv zeta. cbn [fst snd] in *. fold m.
  destruct (label_row label fl (w - (border_left c + border_right c)) align P Rf) as [MP _]. fold m in MP. split.
  - apply plain_from. rewrite !Forall_app. repeat match goal with |- _ /\ _ => split end; auto using when_pseg, one_pseg, plain_segs.
  - rewrite from_segments_cells, !flat_map_app, !when_cells. reflexivity.
Qed.
Lemma full_row : forall row w title sub ta sa, row_ok gw row -> plain_opt gw title -> plain_opt gw sub -> 3 <= w ->
  let '(lf, fl, rt) := row in
  let r := render_row gw me space ellipsis row w title sub ta sa in
  plain r /\ cells r = seg_cells lf ++
    match (match title with Some _ => title | None => sub end) with
    | Some t => cells (render_label_in_row gw me space ellipsis t fl (w - 2) (match title with Some _ => ta | None => sa end))
    | None => repeat (first_or space fl, sg_style fl, me) (w - 2)
    end ++ seg_cells rt.
Proof.
  intros [[lf fl] rt] w title sub ta sa (Rl & Rf & Rr) P1 P2 H r. subst r. unfold render_row. destruct (Nat.leb_spec w 2); [lia|].
  assert (K : forall lab al, plain_opt gw lab -> let m := match lab with Some l => render_label_in_row gw me space ellipsis l fl (w - 2) al | None => repeat_segment gw me space fl (w - 2) end in
    plain (from_segments ([lf] ++ st_segs m ++ [rt])) /\ cells (from_segments ([lf] ++ st_segs m ++ [rt])) = seg_cells lf ++ match lab with Some l => cells (render_label_in_row gw me space ellipsis l fl (w - 2) al) | None => repeat (first_or space fl, sg_style fl, me) (w - 2) end ++ seg_cells rt).
  { intros lab al P m. assert (M : plain m /\ cells m = match lab with Some l => cells (render_label_in_row gw me space ellipsis l fl (w - 2) al) | None => repeat (first_or space fl, sg_style fl, me) (w - 2) end).
    { subst m. destruct lab as [l|].
      - split; [|reflexivity]. apply label_row; [apply P; reflexivity|exact Rf].
      - unfold repeat_segment. destruct (Nat.eqb_spec (w - 2) 0); [lia|]. rewrite from_segment_from. split; [apply plain_from; constructor; [apply rep_narrow, one_first, Rf|constructor]|]. rewrite from_segments_cells. cbn [flat_map]. rewrite app_nil_r. apply rep_cells. }
    destruct M as [MP MC]. split.
    - apply plain_from. rewrite !Forall_app. split; [constructor; auto using one_pseg|]. split; [apply plain_segs, MP|constructor; auto using one_pseg].
    - rewrite from_segments_cells, !flat_map_app. cbn [flat_map]. rewrite !app_nil_r. fold (cells m). rewrite MC. reflexivity. }
  destruct title as [t|]; cbn zeta; [exact (K (Some t) ta P1)|exact (K sub sa P2)].
Qed.
Lemma tiny_row : forall row w title sub ta sa, row_ok gw row -> 1 <= w <= 2 ->
  let '(lf, fl, rt) := row in
  let r := render_row gw me space ellipsis row w title sub ta sa in
  plain r /\ cells r = seg_cells lf ++ (if w =? 2 then seg_cells rt else []).
Proof.
  intros [[lf fl] rt] w title sub ta sa (Rl & Rf & Rr) H r. subst r. unfold render_row. destruct (Nat.leb_spec w 2); [|lia]. destruct (Nat.eqb_spec w 2).
  - split; [apply plain_from; auto using one_pseg|]. rewrite from_segments_cells. cbn. rewrite app_nil_r. reflexivity.
  - destruct (Nat.eqb_spec w 1); [|lia]. rewrite from_segment_from. split; [apply plain_from; auto using one_pseg|]. rewrite from_segments_cells. reflexivity.
Qed.
Lemma horizontal_row : forall row w lab align, row_ok gw row -> plain_opt gw lab ->
  let fl := snd (fst row) in
  let r := render_horizontal_border_row gw me ellipsis dash sd row w lab align in
  let f := (first_or dash fl, or_default sd (sg_style fl), me) in
  plain r /\
  match lab with
  | None => cells r = repeat f w
  | Some t =>
      (st_len t + 2 <= w -> exists a b, placed align w (st_len t) a b /\ cells r = repeat f a ++ cells t ++ repeat f b) /\
      (w < st_len t + 2 -> 2 <= w -> exists e, cells r = [f] ++ firstn (w - 3) (cells t) ++ [(ellipsis, e, me)] ++ repeat f (if 3 <=? w then 1 else 0))
  end.
Proof.
  intros [[lf fl] rt] w lab align (Rl & Rf & Rr) P. cbn [fst snd]. cbv zeta. unfold render_horizontal_border_row. cbv zeta.
  set (f := (first_or dash fl, or_default sd (sg_style fl), me)).
  assert (LP : forall n, pseg (new_seg (repeat (first_or dash fl) n) (or_default sd (sg_style fl)))) by (intros; apply rep_narrow, one_first, Rf).
  destruct lab as [t|].
  - specialize (P t eq_refl). pose proof (plain_len t P) as L. destruct (Nat.ltb_spec (w - 2) (st_len t)) as [H|H].
    + destruct (crop_plain t 0 (w - 2 - 1) P) as [CP CC]. rewrite Nat.sub_0_r in CC. cbn [skipn] in CC. replace (w - 2 - 1) with (w - 3) in * by lia.
      pose proof (plain_len _ CP) as CL. rewrite CC, firstn_length in CL. set (cr := crop gw t 0 (w - 3)) in *. split; [|split].
      * apply plain_from. rewrite !Forall_app. split; [constructor; auto|]. split; [apply plain_segs, CP|]. split; [constructor; [apply new_narrow; auto|constructor]|apply when_pos_pseg, LP].
      * intros K. lia.
      * intros K W2. exists (or_default sd (last_style cr)). rewrite from_segments_cells, !flat_map_app. cbn [flat_map]. rewrite !app_nil_r, rep_cells. fold f. fold (cells cr). rewrite CC. cbn [repeat app].
        rewrite (when_pos_cells _ _ f) by apply rep_cells. f_equal. f_equal. unfold seg_cells. cbn [segment_new sg_text sg_style sg_meta map app]. f_equal. f_equal. destruct (Nat.leb_spec 3 w); lia.
    + destruct (Nat.le_gt_cases (st_len t + 2) w) as [K|K].
      * pose proof (label_padding_placed align w (st_len t)) as PL. destruct (label_padding align (w - st_len t)) as [a b]. specialize (PL ltac:(lia) ltac:(lia)). split; [|split].
        -- apply plain_from. rewrite !Forall_app. split; [apply when_pos_pseg, LP|]. split; [apply plain_segs, P|apply when_pos_pseg, LP].
        -- intros _. exists a, b. split; [exact PL|]. rewrite from_segments_cells, !flat_map_app. rewrite !(when_pos_cells _ _ f) by apply rep_cells. reflexivity.
        -- intros. lia.
      * destruct (label_padding align (w - st_len t)) as [a b]. split; [|split].
        -- apply plain_from. rewrite !Forall_app. split; [apply when_pos_pseg, LP|]. split; [apply plain_segs, P|apply when_pos_pseg, LP].
        -- intros. lia.
        -- intros. lia.
  - rewrite from_segment_from. split; [apply plain_from; auto|]. rewrite from_segments_cells. cbn [flat_map]. rewrite app_nil_r. apply rep_cells.
Qed.

Lemma outline_row : forall row w, row_ok gw row -> let '(lf, fl, rt) := row in let r := outline_edge gw me dash sd c row w in
  plain r /\ cells r = edge_cells (e_left (rc_outline c)) lf ++ repeat (first_or dash fl, or_default sd (sg_style fl), me) (w - (b2n (e_left (rc_outline c)) + b2n (e_right (rc_outline c))))
    ++ edge_cells (e_right (rc_outline c)) rt.
Proof.
  intros [[lf fl] rt] w (Rl & Rf & Rr) r. subst r. unfold outline_edge. cbv zeta. rewrite <- Nat.sub_add_distr. split.
  - apply plain_from. rewrite !Forall_app. split; [auto using when_pseg, one_pseg|]. split; [apply when_pos_pseg, rep_narrow, one_first, Rf|auto using when_pseg, one_pseg].
  - rewrite from_segments_cells, !flat_map_app, !when_cells. rewrite (when_pos_cells _ _ (first_or dash fl, or_default sd (sg_style fl), me)) by apply rep_cells. reflexivity.
Qed.
(** what an outline makes of a row *)
Lemma outlined_plain : forall s y h w, plain s -> plain (apply_outline gw me space dash sd c s y h w).
Proof.
  intros s y h w P. unfold apply_outline. destruct (negb (has_outline c) || (w =? 0) || (h =? 0)); [exact P|].
  destruct (rc_outline_box c) as [[t m] b]. destruct Ox as (Ot & Om & Ob). destruct ((y =? 0) && e_top (rc_outline c)).
  { destruct t as [[a1 a2] a3]. apply (outline_row (a1, a2, a3) w Ot). }
  destruct ((y =? h - 1) && e_bottom (rc_outline c)).
  { destruct b as [[a1 a2] a3]. apply (outline_row (a1, a2, a3) w Ob). }
  destruct (e_left (rc_outline c) || e_right (rc_outline c)); [|exact P].
  destruct m as [[lf fl] rt]. destruct Om as (Ol & _ & Or). cbv zeta. apply plain_from. rewrite !Forall_app. split; [auto using when_pseg, one_pseg|]. split; [|auto using when_pseg, one_pseg].
  apply plain_segs. apply adjust_plain. apply crop_plain. exact P.
Qed.
End C.
End P.
