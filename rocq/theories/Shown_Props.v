(** Properties of the colours widgets are shown in (C106, C107). *)
From Coq Require Import ZArith QArith Qabs List Bool Lia Lqa.
From Verif Require Import Float32_Model Float32_Proofs Bars_Proofs Colour_Model Colour_Spec Colour_Proofs Colour_Props Snapshot_Model Shown_Model Shown_Spec Shown_Proofs.
Import ListNotations.
Open Scope Z_scope.

Section Props.
Variables rnd rnd64 : Q -> Q.
Hypothesis R : rounding rnd.
Hypothesis R64 : rounding rnd64.
Hypothesis A : accurate rnd.
Hypothesis A64 : accurate rnd64.

(** *** C106 Backgrounds and text on them *)
(** What a widget is told of the background behind it is what is painted there:
    nothing on nothing, and else the same channels. *)
Theorem C106_told : forall l foreground, clean l ->
  match t_bg (told_after rnd l (at_root foreground)), painted rnd rnd64 l (at_root foreground) None with
  | Some c, Some e => solid c /\ forall ch, get ch c = chan ch e
  | None, None => ~ Exists ground l
  | _, _ => False
  end.
Proof.
  intros l fg C. destruct (agree_path rnd rnd64 R l fg C) as [G N]. revert G N. destruct (t_bg _) as [c|]; destruct (painted _ _ _ _ _) as [e|]; cbn [agree]; intros G N; auto.
  - destruct G as (S & _ & <-). split; auto.
  - intros X. now apply N.
Qed.

Lemma about_mix : forall x y f, 0 <= x <= 255 -> 0 <= y <= 255 -> (0 <= f <= 1)%Q -> about x y f (u8_clamp (lerp rnd x y f)).
Proof. intros x y f X Y [F0 F1]. destruct (mix_accuracy rnd R A x y f X Y F0 F1). unfold about. split; lra. Qed.
Lemma about_tint : forall c o ch, bytes c -> proper o -> about (get ch c) (get ch o) (c_a o) (get ch (tint rnd c o)).
Proof. intros c o ch B [BO AO]. unfold tint. destruct ch; cbn [get c_r c_g c_b rgba_of]; apply about_mix; auto; [exact (B Red)|exact (BO Red)|exact (B Green)|exact (BO Green)|exact (B Blue)|exact (BO Blue)]. Qed.

(** Each widget covers what is behind it with its own background: not at all
    without one, completely with a solid one, and otherwise in proportion. *)
Theorem C106_layers : forall l k foreground, clean (l ++ [k]) ->
  let under := painted rnd rnd64 l (at_root foreground) None in
  let over := painted rnd rnd64 (l ++ [k]) (at_root foreground) None in
  match k_bg k with
  | None => over = under
  | Some c =>
      exists e, over = Some e /\
        (solid c -> forall ch, match k_tint k with None => chan ch e = get ch c | Some o => about (get ch c) (get ch o) (c_a o) (chan ch e) end) /\
        (~ solid c -> exists u, under = Some u /\ forall ch, about (chan ch u) (get ch c) (c_a c) (chan ch e))
  end.
Proof.
  intros l k fg C under over. subst under over. destruct (clean_snoc l k C) as (Cl & ((PC & PB & PT) & O & TS) & G). destruct (agree_path rnd rnd64 R l fg Cl) as [Ag N].
  rewrite painted_snoc. rewrite (own_full rnd rnd64) by auto. set (t := told_after rnd l (at_root fg)) in *. set (cell := painted rnd rnd64 l (at_root fg) None) in *. clearbody t cell.
  destruct (k_bg k) as [c|] eqn:K.
  - destruct (PB c eq_refl) as [BB BA]. destruct (translucent_or c) as [[T L]|[T S]].
    + destruct (G c eq_refl) as [X|X]; [destruct (not_solid c T X)|]. specialize (N X). destruct (t_bg t) as [p|]; [|congruence]. destruct cell as [u|]; [|destruct Ag]. destruct Ag as (SP & BP & <-).
      assert (NT : k_tint k = None). { destruct (k_tint k) as [o|] eqn:KT; auto. destruct (not_solid c T (TS c o eq_refl eq_refl)). } rewrite NT. cbn [tinted].
      destruct (is_transparent c) eqn:Z.
      * exists (to_rgb p). split; [reflexivity|]. split; [intros S; destruct (not_solid c T S)|]. intros _. exists (to_rgb p). split; auto. intros ch. rewrite chan_to_rgb. unfold is_transparent in Z. apply Qle_bool_iff in Z.
        assert (E : (c_a c == 0)%Q) by lra. unfold about, part_way. split; setoid_rewrite E; lra.
      * cbn [cell_background]. rewrite Z, T. eexists. split; [reflexivity|]. split; [intros S; destruct (not_solid c T S)|]. intros _. exists (to_rgb p). split; auto. intros ch. rewrite !chan_to_rgb.
        unfold blend_over. destruct (Qle_bool 1 (c_a c)) eqn:Q; [apply Qle_bool_iff in Q; lra|]. change (get ch p) with (get ch (rgb_of (r_r (to_rgb p)) (r_g (to_rgb p)) (r_b (to_rgb p)))) || idtac.
        pose proof (about_tint (rgb_of (r_r (to_rgb p)) (r_g (to_rgb p)) (r_b (to_rgb p))) c ch) as H. rewrite (get_rgb ch (to_rgb p)), chan_to_rgb in H. apply H; [|split; auto]. intros []; [exact (BP Red)|exact (BP Green)|exact (BP Blue)].
    + rewrite solid_not_transparent by auto. assert (S' : solid (tinted rnd c (k_tint k))) by (unfold solid; rewrite tinted_alpha; exact S). rewrite cell_bg_solid by auto.
      eexists. split; [reflexivity|]. split; [|intros X; destruct (X S)]. intros _ ch. rewrite chan_to_rgb. destruct (k_tint k) as [o|]; cbn [tinted]; auto. apply about_tint; auto.
  - destruct (t_bg t) as [p|]; [|now destruct cell]. destruct cell as [e|]; [|destruct Ag]. destruct Ag as (S & _ & <-). now apply cell_bg_solid.
Qed.

(** Automatic text is legible: on a clean path, in a widget that has a solid
    background or none, it differs from the background it is shown on by at
    least half of the brightness there is, or by [ratio] of that if softened. *)
Theorem C106_legible : forall l k foreground ratio, clean (l ++ [k]) -> (forall c, k_bg k = Some c -> solid c) -> Exists ground (l ++ [k]) ->
  text_colour_of l foreground k = Some (ratio, true) -> (0 <= c_a ratio <= 1)%Q ->
  exists fg bg, text_cell rnd rnd64 l foreground k = (Some fg, Some bg) /\
    (c_a ratio * (1 # 2) - (1 # 500) <= Qabs (shine fg - shine bg))%Q /\ (solid ratio -> (1 # 2 <= Qabs (shine fg - shine bg))%Q).
Proof.
  intros l k fg r C S E T Rr. pose proof (agree_path rnd rnd64 R _ fg C) as [Ag N]. specialize (N E).
  destruct (clean_snoc l k C) as (Cl & ((PC & PB & PT) & O & TS) & _). destruct (agree_path rnd rnd64 R l fg Cl) as [Al _].
  unfold text_cell. unfold static_colours, text_colour. rewrite told_after_snoc, painted_snoc, tell_bg in *. unfold text_colour_of in T. cbn [declared] in T.
  replace (match fg with Some c => Some (c, false) | None => None end) with (colour_told (at_root fg)) in T by (unfold colour_told; cbn; destruct fg; reflexivity). rewrite <- (told_colour rnd) in T. rewrite <- inherit_colour in T.
  set (t := told_after rnd l (at_root fg)) in *. set (cell := painted rnd rnd64 l (at_root fg) None) in *. clearbody t cell.
  destruct (k_color (inherit k t)) as [c|]; [|discriminate]. injection T as -> Au. rewrite Au.
  assert (OB : own_background rnd rnd64 k t = bg_for_children rnd k t).
  { rewrite own_full by auto. unfold bg_for_children. destruct (k_bg k) as [b|]; auto. specialize (S b eq_refl). rewrite solid_not_transparent, solid_not_translucent by auto. now destruct (t_bg t). }
  rewrite OB in *. destruct (bg_for_children rnd k t) as [b|]; [|congruence]. destruct (cell_background rnd (Some b) cell) as [e|]; [|destruct Ag]. destruct Ag as (Sb & Bb & <-).
  destruct (inherit_bg k t) as (_ & _ & IO). rewrite IO, faded_full by auto. cbn [option_map]. rewrite cell_text_solid by apply contrasting_solid. eexists _, _. split; [reflexivity|]. rewrite !shine_to_rgb.
  assert (H : forall ratio, (1 <= ratio)%Q -> (1 # 2 <= Qabs (luma (contrasting rnd b ratio) - luma b))%Q) by (intros q Q; now apply (proj2 (C67_contrast rnd b 1%Q A Bb))).
  split; [|intros Q; now apply H]. destruct (Qlt_le_dec (c_a r) 1) as [L|L]; [apply (C67_soft rnd b (c_a r) R A Bb); lra|]. specialize (H _ L). lra.
Qed.

(** The text colour is the one declared nearest outwards, or the theme's, and
    a solid one is shown as it is. *)
Theorem C106_text : forall l k foreground c, (1 <= k_opacity k)%Q -> text_colour_of l foreground k = Some (c, false) -> solid c ->
  exists fg, fst (text_cell rnd rnd64 l foreground k) = Some fg /\ forall ch, chan ch fg = get ch c.
Proof.
  intros l k fg c O T S. unfold text_cell, static_colours, text_colour. unfold text_colour_of in T. cbn [declared] in T.
  replace (match fg with Some c => Some (c, false) | None => None end) with (colour_told (at_root fg)) in T by (unfold colour_told; cbn; destruct fg; reflexivity). rewrite <- (told_colour rnd) in T. rewrite <- inherit_colour in T.
  set (t := told_after rnd l (at_root fg)) in *. clearbody t. destruct (k_color (inherit k t)) as [c'|]; [|discriminate]. injection T as -> Au. rewrite Au. destruct (inherit_bg k t) as (_ & _ & IO). rewrite IO, faded_full by auto.
  cbn [fst option_map]. exists (to_rgb c). rewrite cell_text_solid by auto. split; [reflexivity|]. intros ch. apply chan_to_rgb.
Qed.

(** A placeholder without a background of its own shows its palette's colour
    half over what is behind it, the same in every cell, and automatic text on
    it is legible. *)
Theorem C106_placeholder : forall l k foreground overlay ratio, clean l -> Exists ground l -> proper overlay -> (c_a overlay < 1)%Q ->
  k_bg k = None -> (1 <= k_opacity k)%Q -> text_colour_of l foreground k = Some (ratio, true) -> (0 <= c_a ratio <= 1)%Q ->
  exists u fg bg, painted rnd rnd64 l (at_root foreground) None = Some u /\ placeholder_cells rnd rnd64 l foreground overlay k = (Some bg, (fg, Some bg)) /\
    (forall ch, about (chan ch u) (get ch overlay) (c_a overlay) (chan ch bg)) /\
    (c_a ratio * (1 # 2) - (1 # 500) <= Qabs (shine fg - shine bg))%Q /\ (solid ratio -> (1 # 2 <= Qabs (shine fg - shine bg))%Q).
Proof.
  intros l k fg ov r C E PO LO KB O T Rr. destruct (agree_path rnd rnd64 R l fg C) as [Al N]. specialize (N E).
  unfold placeholder_cells, placeholder_colours, placeholder_background, text_colour. unfold text_colour_of in T. cbn [declared] in T.
  replace (match fg with Some c => Some (c, false) | None => None end) with (colour_told (at_root fg)) in T by (unfold colour_told; cbn; destruct fg; reflexivity). rewrite <- (told_colour rnd) in T. rewrite <- inherit_colour in T.
  set (t := told_after rnd l (at_root fg)) in *. set (cell := painted rnd rnd64 l (at_root fg) None) in *. clearbody t cell.
  destruct (k_color (inherit k t)) as [c|]; [|discriminate]. injection T as -> Au. rewrite Au, KB.
  destruct (t_bg t) as [p|]; [|congruence]. destruct cell as [u|]; [|destruct Al]. destruct Al as (SP & BP & <-).
  assert (BO : blend_over rnd ov p = tint rnd p ov). { unfold blend_over. destruct (Qle_bool 1 (c_a ov)) eqn:Q; auto. apply Qle_bool_iff in Q. lra. } rewrite BO.
  assert (Sb : solid (tint rnd p ov)) by exact SP. assert (Bb : bytes (tint rnd p ov)) by apply tint_bytes.
  destruct (inherit_bg k t) as (_ & _ & IO). rewrite IO, faded_full by auto. rewrite !cell_bg_solid by auto. rewrite cell_text_solid by apply contrasting_solid. exists (to_rgb p). eexists _, _. split; [reflexivity|]. split; [reflexivity|]. rewrite !shine_to_rgb.
  split. { intros ch. rewrite !chan_to_rgb. now apply about_tint. }
  assert (H : forall ratio, (1 <= ratio)%Q -> (1 # 2 <= Qabs (luma (contrasting rnd (tint rnd p ov) ratio) - luma (tint rnd p ov)))%Q) by (intros q Q; now apply (proj2 (C67_contrast rnd _ 1%Q A Bb))).
  split; [|intros Q; now apply H]. destruct (Qlt_le_dec (c_a r) 1) as [L|L]; [apply (C67_soft rnd _ (c_a r) R A Bb); lra|]. specialize (H _ L). lra.
Qed.

(** *** C107 Opacity *)
Lemma square_part : forall x y o, 0 <= x <= 255 -> 0 <= y <= 255 -> (0 <= o <= 1)%Q -> about x y o (u8_clamp (lerp rnd x y (rnd o))) /\ about x y (o * o) (u8_clamp (lerp rnd x y (rnd (rnd64 (o * o))))).
Proof.
  intros x y o X Y [O0 O1].
  assert (M : forall q f, (0 <= q <= 1)%Q -> (0 <= f <= 1)%Q -> (- (1 # 1000000) <= f - q <= 1 # 1000000)%Q -> about x y q (u8_clamp (lerp rnd x y f))).
  { intros q f [Q0 Q1] [F0 F1] [D0 D1]. destruct (mix_accuracy rnd R A x y f X Y F0 F1) as [P1 P2]. unfold about, part_way in *. destruct (byte_q x X), (byte_q y Y).
    set (z := inject_Z (u8_clamp _)) in *. clearbody z. set (a := inject_Z x) in *. set (b := inject_Z y) in *. clearbody a b. assert (K : (- (1 # 2000) <= (b - a) * (f - q) <= 1 # 2000)%Q) by (split; nra). split; nra. }
  assert (K : forall q r0, accurate r0 -> rounding r0 -> (0 <= q <= 1)%Q -> (0 <= r0 q <= 1)%Q /\ (- (1 # 10000000) <= r0 q - q <= 1 # 10000000)%Q).
  { intros q r0 A0 R0 [Q0 Q1]. split; [split; [now apply rnd_nonneg|now apply rnd_le_one]|]. pose proof (A0 q) as H. rewrite (Qabs_pos q) in H by auto. apply abs_elim in H. change (1 # 2 ^ 24)%Q with (1 # 16777216)%Q in H. split; lra. }
  split. { destruct (K o rnd A R (conj O0 O1)) as [U V]. apply M; auto; lra. }
  assert (S : (0 <= o * o <= 1)%Q) by (split; nra). destruct (K _ rnd64 A64 R64 S) as [U V]. destruct (K _ rnd A R U) as [U' V']. apply M; auto; lra.
Qed.

(** A widget of opacity [o] on a background: its own solid background shows in
    proportion to [o * o], its text and title in proportion to [o], its border in
    proportion to [o * o]. *)
Theorem C107_proportion : forall l k foreground u, clean l -> proper_look k -> (0 < k_opacity k < 1)%Q -> painted rnd rnd64 l (at_root foreground) None = Some u ->
  (forall c, k_bg k = Some c -> k_tint k = None -> solid c ->
     exists bg, snd (text_cell rnd rnd64 l foreground k) = Some bg /\ forall ch, about (chan ch u) (get ch c) (k_opacity k * k_opacity k) (chan ch bg)) /\
  (forall c, text_colour_of l foreground k = Some (c, false) -> proper c -> solid c ->
     exists fg, fst (text_cell rnd rnd64 l foreground k) = Some fg /\ forall ch, about (chan ch u) (get ch c) (k_opacity k) (chan ch fg)) /\
  (forall c, proper c -> solid c -> let t := told_after rnd l (at_root foreground) in
     (exists edge, option_map (cell_text_colour rnd) (edge_colour rnd rnd64 (Some c) k t) = Some edge /\ forall ch, about (chan ch u) (get ch c) (k_opacity k * k_opacity k) (chan ch edge)) /\
     (forall e, exists title, option_map (cell_text_colour rnd) (title_colour rnd (Some c) e k t) = Some title /\ forall ch, about (chan ch u) (get ch c) (k_opacity k) (chan ch title))).
Proof.
  intros l k fg u C (PC & PB & PT) [O0 O1] P. destruct (agree_path rnd rnd64 R l fg C) as [Ag _]. rewrite P in Ag.
  unfold text_cell, static_colours, text_colour, text_colour_of. cbn [declared]. cbv zeta.
  replace (match fg with Some c => Some (c, false) | None => None end) with (colour_told (at_root fg)) by (unfold colour_told; cbn; destruct fg; reflexivity). rewrite <- (told_colour rnd), <- inherit_colour. rewrite P.
  set (t := told_after rnd l (at_root fg)) in *. clearbody t. destruct (t_bg t) as [p|] eqn:TB; [|destruct Ag]. destruct Ag as (SP & BP & <-). destruct (inherit_bg k t) as (_ & _ & IO).
  assert (Q0 : Qle_bool (k_opacity k) 0 = false). { destruct (Qle_bool _ _) eqn:Q; auto. apply Qle_bool_iff in Q. lra. }
  assert (Q1 : Qle_bool 1 (k_opacity k) = false). { destruct (Qle_bool 1 _) eqn:Q; auto. apply Qle_bool_iff in Q. lra. }
  assert (S0 : Qle_bool (rnd64 (k_opacity k * k_opacity k)) 0 = false).
  { destruct (Qle_bool (rnd64 _) _) eqn:Q; auto. apply Qle_bool_iff in Q. assert (W : (0 < k_opacity k * k_opacity k)%Q) by nra. pose proof (rnd_rel rnd64 R64 _ W) as H. set (q := (k_opacity k * k_opacity k)%Q) in *. clearbody q. exfalso. change (1 # 2 ^ 24)%Q with (1 # 16777216)%Q in H. lra. }
  assert (FO : forall c, bytes c -> solid c -> let z := blend_toward rnd c p (k_opacity k) in solid z /\ forall ch, about (chan ch (to_rgb p)) (get ch c) (k_opacity k) (get ch z)).
  { intros c B S. unfold blend_toward. rewrite Q0, Q1. cbv zeta. split; [exact S|]. intros ch. rewrite chan_to_rgb. destruct ch; cbn [get c_r c_g c_b rgba_of]; apply square_part; try lra; [exact (BP Red)|exact (B Red)|exact (BP Green)|exact (B Green)|exact (BP Blue)|exact (B Blue)]. }
  assert (FS : forall c, bytes c -> solid c -> let z := blend_toward rnd c p (rnd64 (k_opacity k * k_opacity k)) in solid z /\ forall ch, about (chan ch (to_rgb p)) (get ch c) (k_opacity k * k_opacity k) (get ch z)).
  { intros c B S. unfold blend_toward. rewrite S0. destruct (Qle_bool 1 (rnd64 (k_opacity k * k_opacity k))) eqn:S1.
    - cbv zeta. split; auto. intros ch. rewrite chan_to_rgb. apply Qle_bool_iff in S1. assert (W : (0 <= k_opacity k * k_opacity k <= 1)%Q) by (split; nra). pose proof (A64 (k_opacity k * k_opacity k)%Q) as H. rewrite (Qabs_pos (k_opacity k * k_opacity k)%Q) in H by lra. apply abs_elim in H. change (1 # 2 ^ 24)%Q with (1 # 16777216)%Q in H.
      unfold about, part_way. set (q := (k_opacity k * k_opacity k)%Q) in *. clearbody q. pose proof (byte_q _ (B ch)) as [? ?]. pose proof (byte_q _ (BP ch)) as [? ?]. set (a := inject_Z (get ch p)) in *. set (b := inject_Z (get ch c)) in *. clearbody a b. assert (K : (- (1 # 1000) <= (b - a) * (1 - q) <= 1 # 1000)%Q) by (split; nra). split; nra.
    - cbv zeta. split; [exact S|]. intros ch. rewrite chan_to_rgb. destruct ch; cbn [get c_r c_g c_b rgba_of]; apply square_part; try lra; [exact (BP Red)|exact (B Red)|exact (BP Green)|exact (B Green)|exact (BP Blue)|exact (B Blue)]. }
  split; [|split].
  - intros c K T S. unfold own_background. rewrite K, T, TB, Q1. cbn [tinted negb snd]. rewrite (solid_not_transparent c S). destruct (FS c (proj1 (PB c K)) S) as [S' H]. rewrite cell_bg_solid by auto. eexists. split; [reflexivity|]. intros ch. rewrite (chan_to_rgb ch (blend_toward _ _ _ _)). apply H.
  - intros c T [B _] S. destruct (k_color (inherit k t)) as [c'|]; [|discriminate]. injection T as -> Au. rewrite Au, IO. unfold faded. rewrite TB. destruct (FO c B S) as [S' H]. cbn [fst option_map]. rewrite cell_text_solid by auto. eexists. split; [reflexivity|]. intros ch. rewrite (chan_to_rgb ch (blend_toward _ _ _ _)). apply H.
  - intros c [B _] S. split; [|intros e].
    + unfold edge_colour. rewrite IO. unfold faded. rewrite TB. destruct (FS c B S) as [S' H]. cbn [option_map]. rewrite cell_text_solid by auto. eexists. split; [reflexivity|]. intros ch. rewrite (chan_to_rgb ch (blend_toward _ _ _ _)). apply H.
    + unfold title_colour. rewrite IO. unfold faded. rewrite TB. destruct (FO c B S) as [S' H]. cbn [option_map]. rewrite cell_text_solid by auto. eexists. split; [reflexivity|]. intros ch. rewrite (chan_to_rgb ch (blend_toward _ _ _ _)). apply H.
Qed.

(** At opacity 0 nothing of the widget itself is seen: the background is as it
    was, and any text, border or title has the colour of the background. *)
Theorem C107_zero : forall l k foreground u, clean l -> (k_opacity k == 0)%Q -> painted rnd rnd64 l (at_root foreground) None = Some u ->
  let t := told_after rnd l (at_root foreground) in
  snd (text_cell rnd rnd64 l foreground k) = Some u /\
  (forall fg, fst (text_cell rnd rnd64 l foreground k) = Some fg -> fg = u) /\
  (forall edge c, edge_colour rnd rnd64 edge k t = Some c -> cell_text_colour rnd c = u) /\
  (forall title edge c, title_colour rnd title edge k t = Some c -> cell_text_colour rnd c = u).
Proof.
  intros l k fg u C O P t. subst t. destruct (agree_path rnd rnd64 R l fg C) as [Ag _]. rewrite P in Ag. unfold text_cell, static_colours, text_colour. rewrite P.
  set (t := told_after rnd l (at_root fg)) in *. clearbody t. destruct (t_bg t) as [p|] eqn:TB; [|destruct Ag]. destruct Ag as (SP & BP & <-). destruct (inherit_bg k t) as (IB & IT & IO). rewrite IO.
  pose proof (square_zero rnd64 R64 _ O) as SQ. assert (Q1 : Qle_bool 1 (k_opacity k) = false). { destruct (Qle_bool 1 _) eqn:Q; auto. apply Qle_bool_iff in Q. lra. }
  assert (F : forall c, faded rnd c t (k_opacity k) = p) by (intros c; apply (faded_none rnd c t p); auto; lra).
  assert (F2 : forall c, faded rnd c t (rnd64 (k_opacity k * k_opacity k)) = p) by (intros c; apply (faded_none rnd c t p); auto; lra).
  assert (W : forall c, blend_toward rnd c p (k_opacity k) = p). { intros c. specialize (F c). unfold faded in F. now rewrite TB in F. }
  assert (W2 : forall c, blend_toward rnd c p (rnd64 (k_opacity k * k_opacity k)) = p). { intros c. specialize (F2 c). unfold faded in F2. now rewrite TB in F2. }
  repeat split.
  - cbn [snd]. unfold own_background. rewrite TB, Q1. cbn [negb]. destruct (match k_bg k with Some bg => is_transparent bg | None => false end); [reflexivity|]. destruct (k_bg k) as [b|]; rewrite W2; now apply cell_bg_solid.
  - cbn [fst]. intros f. destruct (k_auto (inherit k t)).
    + destruct (own_background rnd rnd64 k t); [|discriminate]. rewrite F. cbn [option_map]. rewrite cell_text_solid by auto. congruence.
    + destruct (k_color (inherit k t)) as [c|]; [rewrite F|rewrite Q1; cbn [negb]; rewrite W]; cbn [option_map]; rewrite cell_text_solid by auto; congruence.
  - intros e c. unfold edge_colour. rewrite IO. destruct (match e with Some c => Some c | None => k_color (inherit k t) end); [|discriminate]. rewrite F2. intros [= <-]. now apply cell_text_solid.
  - intros ti e c. unfold title_colour. rewrite IO. destruct (match ti with Some c => Some c | None => _ end); [|discriminate]. rewrite F. intros [= <-]. now apply cell_text_solid.
Qed.

(** Every background, see-through and tinted ones too: whatever the opacity,
    each channel lies between what was behind and the widget's own. *)
Theorem C107_between : forall l k foreground u c, clean l -> proper_look k -> painted rnd rnd64 l (at_root foreground) None = Some u -> k_bg k = Some c ->
  exists bg, snd (text_cell rnd rnd64 l foreground k) = Some bg /\
    forall ch, between (chan ch u) (match k_tint k with Some o => get ch (tint rnd c o) | None => get ch c end) (chan ch bg).
Proof.
  intros l k fg u c C (PC & PB & PT) P K. destruct (agree_path rnd rnd64 R l fg C) as [Ag _]. rewrite P in Ag. unfold text_cell, static_colours. rewrite P.
  set (t := told_after rnd l (at_root fg)) in *. clearbody t. destruct (t_bg t) as [p|] eqn:TB; [|destruct Ag]. destruct Ag as (SP & BP & <-). cbn [snd].
  destruct (PB c K) as [BC AC]. unfold own_background. rewrite K, TB. destruct (is_transparent c) eqn:Z. { exists (to_rgb p). split; auto. intros ch. unfold between. lia. }
  set (b := tinted rnd c (k_tint k)).
  assert (BB : bytes b) by (now apply tinted_bytes). assert (AB : c_a b = c_a c) by apply tinted_alpha. assert (EB : forall ch, match k_tint k with Some o => get ch (tint rnd c o) | None => get ch c end = get ch b) by (intros ch; unfold b; destruct (k_tint k); reflexivity).
  set (z := if negb (Qle_bool 1 (k_opacity k)) then blend_toward rnd b p (rnd64 (k_opacity k * k_opacity k)) else b).
  replace (if negb (Qle_bool 1 (k_opacity k)) then Some (blend_toward rnd b p (rnd64 (k_opacity k * k_opacity k))) else Some b) with (Some z) by (unfold z; destruct (negb _); reflexivity).
  assert (HZ : bytes z /\ (c_a z = c_a c \/ solid z) /\ forall ch, between (get ch p) (get ch b) (get ch z)).
  { unfold z. destruct (negb _); [|repeat split; auto; try (apply BB); intros; unfold between; lia]. split.
    - intros ch. pose proof (toward_between rnd R b p (rnd64 (k_opacity k * k_opacity k)) ch BB BP) as H. pose proof (BB ch). pose proof (BP ch). unfold between in H. lia.
    - split; [|intros ch; pose proof (toward_between rnd R b p (rnd64 (k_opacity k * k_opacity k)) ch BB BP) as H; unfold between in *; lia]. unfold blend_toward. destruct (Qle_bool 1 _); [now left|]. destruct (Qle_bool _ 0); [now right|]. left. exact AB. }
  destruct HZ as (BZ & AZ & HZ). clearbody z. cbn [cell_background].
  assert (TZ : is_transparent z = false). { destruct AZ as [E|E]; [unfold is_transparent in *; now rewrite E|now apply solid_not_transparent]. } rewrite TZ.
  destruct (translucent_or z) as [[T L]|[T S]]; rewrite T; (eexists; split; [reflexivity|]); intros ch; rewrite EB, !chan_to_rgb; [|apply HZ].
  assert (PZ : (0 <= c_a z <= 1)%Q). { destruct AZ as [E|E]; [now rewrite E|destruct (not_solid z T E)]. }
  destruct (C52_tint_between rnd (rgb_of (r_r (to_rgb p)) (r_g (to_rgb p)) (r_b (to_rgb p))) z ch R) as (_ & H & _); auto.
  rewrite get_rgb, chan_to_rgb in H. specialize (HZ ch). unfold between in *. lia.
Qed.

(** At full opacity a border has its own colour, or else the text's, and a
    title its own, or else the border's, or else the text's. *)
Theorem C107_full : forall l k foreground edge title, (1 <= k_opacity k)%Q ->
  let t := told_after rnd l (at_root foreground) in
  let text := match text_colour_of l foreground k with Some (c, _) => Some c | None => None end in
  edge_colour rnd rnd64 edge k t = or_else edge text /\ title_colour rnd title edge k t = or_else title (or_else edge text).
Proof.
  intros l k fg e ti O t text. subst t text. unfold edge_colour, title_colour, text_colour_of. cbn [declared].
  replace (match fg with Some c => Some (c, false) | None => None end) with (colour_told (at_root fg)) by (unfold colour_told; cbn; destruct fg; reflexivity). rewrite <- (told_colour rnd), <- inherit_colour.
  set (t := told_after rnd l (at_root fg)) in *. clearbody t. destruct (inherit_bg k t) as (_ & _ & IO). rewrite IO.
  assert (O2 : (1 <= rnd64 (k_opacity k * k_opacity k))%Q). { assert (E : (inject_Z 1 <= k_opacity k * k_opacity k)%Q) by (change (inject_Z 1) with 1%Q; nra). pose proof (rnd_mono rnd64 R64 _ _ E) as M. rewrite (rnd_int rnd64 R64 1) in M by lia. exact M. }
  assert (F : forall c, faded rnd c t (k_opacity k) = c) by (intros; now apply faded_full). assert (F2 : forall c, faded rnd c t (rnd64 (k_opacity k * k_opacity k)) = c) by (intros; now apply faded_full).
  destruct ti, e, (k_color (inherit k t)); cbn [or_else]; rewrite ?F, ?F2; auto.
Qed.

End Props.
Print Assumptions C106_told.
Print Assumptions C106_layers.
Print Assumptions C106_legible.
Print Assumptions C106_text.
Print Assumptions C106_placeholder.
Print Assumptions C107_proportion.
Print Assumptions C107_zero.
Print Assumptions C107_between.
Print Assumptions C107_full.

(** *** Cases *)
Definition filled (c : rgba) : look := Look None false (Some c) None 1.
Definition bare : look := Look None false None None 1.
Definition on_black : list look := [filled (rgb_of 0 0 0)].
Ltac colours := let E := fresh in intros ? E; cbn in E; try discriminate E; injection E as <-; (split; [intros []; cbn; lia|cbn; lra]).
Ltac looks := split; [split; [colours|split; colours]|split; [cbn; lra|let E := fresh in let F := fresh in intros ? ? E F; cbn in E, F; try discriminate E; try discriminate F; injection E as <-; unfold solid; cbn; lra]].
Lemma on_black_clean : clean on_black /\ Exists ground on_black.
Proof.
  split; [split|].
  - constructor; [looks|constructor].
  - intros above k below c E B. destruct above as [|a above]; [|destruct above; discriminate]. cbn in E. injection E as <- _. injection B as <-. left. unfold solid. cbn. lra.
  - constructor. exists (rgb_of 0 0 0). split; [reflexivity|]. unfold solid. cbn. lra.
Qed.
(** A panel half over black, and automatic text on a button in it. *)
Definition panel : list look := [filled (rgb_of 0 0 0); filled (rgba_of 100 200 50 (1 # 2)); bare].
Definition auto_text : look := Look (Some (auto_of (9 # 10))) true (Some (rgb_of 200 200 0)) (Some (rgba_of 255 255 255 (1 # 10))) 1.
Example C106_example :
  clean (panel ++ [auto_text]) /\ painted rnd32 exactly panel (at_root None) None = Some (Rgb 50 100 25) /\
  text_cell rnd32 exactly panel None auto_text = (Some (Rgb 21 21 3), Some (Rgb 205 205 25)) /\ text_colour_of panel None auto_text = Some (auto_of (9 # 10), true).
Proof.
  split; [split|].
  - do 4 (constructor; [looks|]). constructor.
  - intros above k below c E B. destruct above as [|a above]; [|right; constructor; exists (rgb_of 0 0 0); cbn in E; injection E as <- _; split; [reflexivity|unfold solid; cbn; lra]].
    cbn in E. injection E as <- _. injection B as <-. left. unfold solid. cbn. lra.
  - repeat split; vm_compute; reflexivity.
Qed.

(** Automatic text on a see-through background of the widget itself is
    contrasted with that background as if it were solid: on white at 10% over
    black, the text is black. *)
Theorem C106_see_through_refuted : exists l k fg bg, clean l /\ Exists ground l /\ plain k /\ text_colour_of l None k = Some (auto_of 1, true) /\
  text_cell rnd32 exactly l None k = (Some fg, Some bg) /\ (Qabs (shine fg - shine bg) < 1 # 10)%Q.
Proof.
  exists on_black, (Look (Some (auto_of 1)) true (Some (rgba_of 255 255 255 (1 # 10))) None 1), (Rgb 0 0 0), (Rgb 25 25 25). destruct on_black_clean as [C G].
  split; auto. split; auto. split. { looks. }
  split; [reflexivity|]. split; vm_compute; reflexivity.
Qed.
Print Assumptions C106_see_through_refuted.
(** With a transparent background, automatic text has no colour at all and is
    left to the terminal. *)
Theorem C106_transparent_refuted : exists l k, clean l /\ Exists ground l /\ text_colour_of l None k = Some (auto_of 1, true) /\
  text_cell rnd32 exactly l None k = (None, Some (Rgb 0 0 0)).
Proof. exists on_black, (Look (Some (auto_of 1)) true (Some (rgba_of 0 0 0 0)) None 1). destruct on_black_clean as [C G]. repeat split; auto; apply C. Qed.
Print Assumptions C106_transparent_refuted.
(** A tint on a see-through background is painted before it is laid over what is
    behind, but told to the children as if after. *)
Theorem C106_tint_refuted : exists k e c, proper_look k /\ (1 <= k_opacity k)%Q /\
  painted rnd32 exactly (on_black ++ [k]) (at_root None) None = Some e /\ t_bg (told_after rnd32 (on_black ++ [k]) (at_root None)) = Some c /\ get Red c <> chan Red e.
Proof.
  exists (Look None false (Some (rgba_of 255 255 255 (1 # 2))) (Some (rgba_of 255 0 0 (1 # 2))) 1). eexists _, _. split. { split; [colours|split; colours]. }
  split; [cbn; lra|]. split; [vm_compute; reflexivity|]. split; [vm_compute; reflexivity|]. vm_compute. discriminate.
Qed.
Print Assumptions C106_tint_refuted.
(** On nothing, a see-through background is laid over black, and again by each
    widget without a background inside it. *)
Theorem C106_root_refuted : exists k, plain k /\ painted rnd32 exactly [k] (at_root None) None = Some (Rgb 127 127 127) /\
  painted rnd32 exactly [k; bare] (at_root None) None = Some (Rgb 191 191 191).
Proof.
  exists (filled (rgba_of 255 255 255 (1 # 2))). split. { looks. }
  split; vm_compute; reflexivity.
Qed.
Print Assumptions C106_root_refuted.
(** See-through text is mixed with black, whatever it is written on: white at
    50% is grey on white. *)
Theorem C106_text_refuted : exists l k fg bg, text_colour_of l None k = Some (rgba_of 255 255 255 (1 # 2), false) /\
  text_cell rnd32 exactly l None k = (Some fg, Some bg) /\ bg = Rgb 255 255 255 /\ fg = Rgb 128 128 128.
Proof. exists [filled (rgb_of 255 255 255)], (Look (Some (rgba_of 255 255 255 (1 # 2))) false None None 1). eexists _, _. split; [reflexivity|]. split; [vm_compute; reflexivity|]. split; reflexivity. Qed.
Print Assumptions C106_text_refuted.
(** A placeholder with a see-through background lays it twice under its text. *)
Theorem C106_placeholder_refuted : exists l k overlay, plain k /\ fst (placeholder_cells rnd32 exactly l None overlay k) = Some (Rgb 127 127 127) /\
  snd (snd (placeholder_cells rnd32 exactly l None overlay k)) = Some (Rgb 191 191 191).
Proof.
  exists on_black, (filled (rgba_of 255 255 255 (1 # 2))), (rgba_of 136 17 119 (1 # 2)). split. { looks. }
  split; vm_compute; reflexivity.
Qed.
Print Assumptions C106_placeholder_refuted.
Example C106_placeholder_example : placeholder_cells rnd32 exactly on_black None (rgba_of 136 17 119 (1 # 2)) (Look (Some (auto_of 1)) true None None 1) = (Some (Rgb 68 8 59), (Rgb 255 255 255, Some (Rgb 68 8 59))).
Proof. vm_compute. reflexivity. Qed.
(** A border without a colour takes that of the text, and for automatic text
    this is black, even on black. *)
Theorem C107_border_refuted : exists k, text_colour_of on_black None k = Some (auto_of 1, true) /\ (1 <= k_opacity k)%Q /\
  option_map (cell_text_colour rnd32) (edge_colour rnd32 exactly None k (told_after rnd32 on_black (at_root None))) = painted rnd32 exactly on_black (at_root None) None /\
  option_map (cell_text_colour rnd32) (title_colour rnd32 None None k (told_after rnd32 on_black (at_root None))) = painted rnd32 exactly on_black (at_root None) None.
Proof. exists (Look (Some (auto_of 1)) true None None 1). split; [reflexivity|]. split; [cbn; lra|]. split; vm_compute; reflexivity. Qed.
Print Assumptions C107_border_refuted.
(** Opacity is not passed on: inside a red container of opacity 0, a widget
    without a background paints red. *)
Theorem C107_children_refuted : exists k, (k_opacity k == 0)%Q /\ k_bg k = Some (rgb_of 255 0 0) /\
  painted rnd32 exactly (on_black ++ [k]) (at_root None) None = Some (Rgb 0 0 0) /\
  painted rnd32 exactly (on_black ++ [k; bare]) (at_root None) None = Some (Rgb 255 0 0).
Proof. exists (Look None false (Some (rgb_of 255 0 0)) None 0). split; [reflexivity|]. split; [reflexivity|]. split; vm_compute; reflexivity. Qed.
Print Assumptions C107_children_refuted.
(** A placeholder's palette colour does not fade. *)
Theorem C107_placeholder_refuted : exists k overlay bg, (k_opacity k == 0)%Q /\ fst (placeholder_cells rnd32 exactly on_black None overlay k) = Some bg /\ bg <> Rgb 0 0 0.
Proof. exists (Look None false None None 0), (rgba_of 136 17 119 (1 # 2)). eexists. split; [reflexivity|]. split; [vm_compute; reflexivity|]. discriminate. Qed.
Print Assumptions C107_placeholder_refuted.
Example C107_example : text_cell rnd32 exactly on_black None (Look (Some (rgb_of 200 100 0)) false (Some (rgb_of 0 80 160)) None (1 # 2)) = (Some (Rgb 100 50 0), Some (Rgb 0 20 40)).
Proof. vm_compute. reflexivity. Qed.
