(** C99, C100: themes and references to their colours. *)
From Coq Require Import String ZArith QArith Qround List Bool Lia Lqa.
From Verif Require Import Text_Model Float32_Model Float32_Proofs Bars_Proofs Colour_Model Colour_Spec Colour_Proofs Colour_Props Keys_Proofs Sheet_Model Colour_Model Theme_Model Theme_Spec Theme_Proofs.
Import ListNotations.
Notation length := List.length.
Open Scope Z_scope.
Open Scope list_scope.

Section Themes.
Variable rnd : Q -> Q.          (* rounding of f32 arithmetic *)
Variable powf : Q -> Q -> Q.    (* f32::powf *)
Notation shown s n := (get_color (from_color_system rnd powf (str "any") s) n).
Notation stands := (stands rnd).
Notation lighten := (lighten rnd powf).
Notation darken := (darken rnd powf).

(** *** C99 The variables of a theme *)
(** Each builder call sets its own field; the last call for a field counts. *)
Theorem C99_builder : forall p dark l f c,
  given f (build rnd p dark l) = Some c <-> exists before after, l = before ++ CColour f c :: after /\ forall x, ~ In (CColour f x) after.
Proof.
  intros p dark l f c. unfold build. revert c. induction l as [|k l IH] using rev_ind; intros c.
  - cbn. split; [destruct f; discriminate|]. intros [b [a [E _]]]. destruct b; discriminate.
  - rewrite fold_left_app. cbn [fold_left]. set (s := fold_left run_call l _) in *. destruct k as [g x|q|q].
    + assert (D : g = f \/ g <> f) by (destruct f, g; (left; reflexivity) || (right; discriminate)).
      destruct D as [-> |D].
      * assert (G : given f (run_call s (CColour f x)) = Some x) by (destruct s, f; reflexivity). rewrite G. split.
        -- intros E. injection E as ->. exists l, []. split; [reflexivity|]. intros y [].
        -- intros [b [a [E N]]]. destruct a as [|y a] using rev_ind.
           { apply app_inj_tail in E. destruct E as [_ E]. injection E as ->. reflexivity. }
           exfalso. change (b ++ CColour f c :: a ++ [y]) with (b ++ (CColour f c :: a) ++ [y]) in E. rewrite app_assoc in E.
           apply app_inj_tail in E. destruct E as [_ <-]. apply (N x). apply in_or_app. right. left. reflexivity.
      * assert (G : given f (run_call s (CColour g x)) = given f s) by (destruct s, f, g; (reflexivity || (exfalso; apply D; reflexivity))). rewrite G, IH. split.
        -- intros [b [a [-> N]]]. exists b, (a ++ [CColour g x]). split; [rewrite <- app_assoc; reflexivity|]. intros y I. apply in_app_or in I.
           destruct I as [I|[I|[]]]; [exact (N y I)|injection I as I _; exact (D I)].
        -- intros [b [a [E N]]]. destruct a as [|y a] using rev_ind.
           { apply app_inj_tail in E. destruct E as [_ E]. injection E as E _. destruct (D E). }
           clear IHa. change (b ++ CColour f c :: a ++ [y]) with (b ++ (CColour f c :: a) ++ [y]) in E. rewrite app_assoc in E.
           apply app_inj_tail in E. destruct E as [-> _]. exists b, a. split; [reflexivity|]. intros z I. apply (N z). apply in_or_app. left. exact I.
    + assert (G : given f (run_call s (CSpread q)) = given f s) by (destruct s, f; reflexivity). rewrite G, IH. split.
      * intros [b [a [-> N]]]. exists b, (a ++ [CSpread q]). split; [rewrite <- app_assoc; reflexivity|]. intros y I. apply in_app_or in I.
        destruct I as [I|[I|[]]]; [exact (N y I)|discriminate].
      * intros [b [a [E N]]]. destruct a as [|y a] using rev_ind; [apply app_inj_tail in E; destruct E as [_ E]; discriminate|].
        clear IHa. change (b ++ CColour f c :: a ++ [y]) with (b ++ (CColour f c :: a) ++ [y]) in E. rewrite app_assoc in E.
        apply app_inj_tail in E. destruct E as [-> _]. exists b, a. split; [reflexivity|]. intros z I. apply (N z). apply in_or_app. left. exact I.
    + assert (G : given f (run_call s (CTextAlpha q)) = given f s) by (destruct s, f; reflexivity). rewrite G, IH. split.
      * intros [b [a [-> N]]]. exists b, (a ++ [CTextAlpha q]). split; [rewrite <- app_assoc; reflexivity|]. intros y I. apply in_app_or in I.
        destruct I as [I|[I|[]]]; [exact (N y I)|discriminate].
      * intros [b [a [E N]]]. destruct a as [|y a] using rev_ind; [apply app_inj_tail in E; destruct E as [_ E]; discriminate|].
        clear IHa. change (b ++ CColour f c :: a ++ [y]) with (b ++ (CColour f c :: a) ++ [y]) in E. rewrite app_assoc in E.
        apply app_inj_tail in E. destruct E as [-> _]. exists b, a. split; [reflexivity|]. intros z I. apply (N z). apply in_or_app. left. exact I.
Qed.
(** The primary colour, the darkness, the spread and the text opacity: set at
    the start, the last two also by their own calls only. *)
Theorem C99_builder_rest : forall p dark l, let s := build rnd p dark l in
  s_primary s = p /\ s_dark s = dark /\
  ((forall q, ~ In (CSpread q) l) -> s_spread s = rnd (15 # 100)) /\ (forall before q after, l = before ++ CSpread q :: after -> (forall r, ~ In (CSpread r) after) -> s_spread s = q) /\
  ((forall q, ~ In (CTextAlpha q) l) -> s_text_alpha s = rnd (95 # 100)) /\
  (forall before q after, l = before ++ CTextAlpha q :: after -> (forall r, ~ In (CTextAlpha r) after) -> s_text_alpha s = q).
Proof.
  intros p dark l s.
  assert (P : forall l s, s_primary (fold_left run_call l s) = s_primary s /\ s_dark (fold_left run_call l s) = s_dark s).
  { clear. induction l as [|k l IH]; intros s; [auto|]. cbn [fold_left]. destruct (IH (run_call s k)) as [-> ->]. destruct s, k as [f c|q|q]; try destruct f; auto. }
  assert (SP : forall l s, (forall q, ~ In (CSpread q) l) -> s_spread (fold_left run_call l s) = s_spread s).
  { clear. induction l as [|k l IH]; intros s N; [reflexivity|]. cbn [fold_left]. rewrite IH by (intros q I; apply (N q); right; exact I).
    destruct s, k as [f c|q|q]; try destruct f; try reflexivity. exfalso. apply (N q). left. reflexivity. }
  assert (TA : forall l s, (forall q, ~ In (CTextAlpha q) l) -> s_text_alpha (fold_left run_call l s) = s_text_alpha s).
  { clear. induction l as [|k l IH]; intros s N; [reflexivity|]. cbn [fold_left]. rewrite IH by (intros q I; apply (N q); right; exact I).
    destruct s, k as [f c|q|q]; try destruct f; try reflexivity. exfalso. apply (N q). left. reflexivity. }
  subst s. unfold build. destruct (P l (new_system rnd p dark)) as [-> ->]. split; [reflexivity|]. split; [reflexivity|].
  split; [intros N; rewrite (SP l _ N); reflexivity|]. split; [intros b q a -> N; rewrite fold_left_app; cbn [fold_left]; rewrite (SP a _ N); destruct (fold_left _ b _); reflexivity|].
  split; [intros N; rewrite (TA l _ N); reflexivity|]. intros b q a -> N. rewrite fold_left_app. cbn [fold_left]. rewrite (TA a _ N). destruct (fold_left _ b _). reflexivity.
Qed.
(** Every system stands for one colour for each of the eleven base colours. *)
Theorem C99_bases : forall s b, exists c, stands s b c /\ forall d, stands s b d -> d = c.
Proof. intros s b. exists (val rnd s b). split; [apply val_stands|]. intros d H. exact (stands_val rnd s b d H). Qed.
(** Whatever colours are given, the variables are the documented ones. *)
Theorem C99_names : forall s n, (exists c, shown s n = Some c) <-> In n documented.
Proof.
  intros s n. unfold get_color. cbn [from_color_system t_colors].
  assert (E : (exists c, Theme_Model.get (generate rnd powf s) n = Some c) <-> In n keys3).
  { pose proof (get_none _ (generate rnd powf s) n) as G. rewrite generate_keys in G. destruct (Theme_Model.get (generate rnd powf s) n) as [c|] eqn:X.
    - split; [intros _|eauto]. destruct (in_dec (list_eq_dec Z.eq_dec) n keys3) as [I|I]; [exact I|]. apply G in I. discriminate.
    - split; [intros [c H]; discriminate|]. intros I. exfalso. exact (proj1 G eq_refl I). }
  rewrite E. assert (A : forallb (fun x => existsb (text_eqb x) documented) keys3 = true) by (vm_compute; reflexivity).
  assert (B : forallb (fun x => existsb (text_eqb x) keys3) documented = true) by (vm_compute; reflexivity).
  rewrite forallb_forall in A, B. split; intros I; [apply A in I|apply B in I]; apply existsb_exists in I; destruct I as [y [I Y]]; apply text_eqb_iff in Y; subst y; exact I.
Qed.
Lemma shown_in : forall s n c, In (n, c) (generate rnd powf s) -> shown s n = Some c.
Proof. intros s n c I. apply get_in; [apply generate_nodup|exact I]. Qed.
Ltac find_last := first [left; reflexivity | right; find_last].
(** These are base colours as they are, with another opacity, or transparent. *)
Theorem C99_copies : forall s n b c, In (n, b) copies -> stands s b c -> shown s (str n) = Some c.
Proof.
  intros s n b c I H. apply stands_val in H. subst c. apply shown_in. rewrite generate_stages.
  assert (A : In (n, val rnd s b) (map (fun nb => (fst nb, val rnd s (snd nb))) copies)) by (apply in_map_iff; exists (n, b); auto).
  clear I. destruct A as [A|A].
  { injection A as <- <-. apply in_inserts_old. unfold stage2. apply in_inserts. cbn [val fst snd]. find_last. }
  unfold stage3. apply in_inserts. revert A. generalize (val rnd s b). intros c A. cbn [map fst snd] in A.
  repeat (destruct A as [A|A]; [injection A as <- <-; cbn [val]; find_last|]). destruct A.
Qed.
Theorem C99_faded : forall s n b a c, In (n, b, a) faded -> stands s b c -> shown s (str n) = Some (with_alpha c (rnd a)).
Proof.
  intros s n b a c I H. apply stands_val in H. subst c. apply shown_in. rewrite generate_stages.
  unfold faded in I. cbn [In] in I.
  destruct I as [I|I]; [injection I as <- <- <-; apply in_inserts_old; apply in_inserts_old; unfold stage1; apply in_inserts; find_last|].
  destruct I as [I|I]; [injection I as <- <- <-; apply in_inserts_old; apply in_inserts_old; unfold stage1; apply in_inserts; find_last|].
  unfold stage3. apply in_inserts. repeat (destruct I as [I|I]; [injection I as <- <- <-; cbn [val]; find_last|]). destruct I.
Qed.
Theorem C99_see_through : forall s n, In n see_through -> exists c, shown s (str n) = Some c /\ (c_a c == 0)%Q /\ c_auto c = false /\ c_ansi c = None.
Proof.
  intros s n I. exists transparent. split; [|repeat split; reflexivity]. apply shown_in. rewrite generate_stages. unfold stage3. apply in_inserts.
  unfold see_through in I. cbn [In] in I. repeat (destruct I as [I|I]; [subst n; find_last|]). destruct I.
Qed.
(** Text asks for contrast with what it is on, unless the foreground is a colour
    of the terminal. *)
Theorem C99_texts : forall s n a f, In (n, a) texts -> stands s Foreground f ->
  exists c, shown s (str n) = Some c /\ (c_ansi f = None -> c_auto c = true /\ c_a c = rnd a) /\ (c_ansi f <> None -> c = f).
Proof.
  intros s n a f I H. apply stands_val in H. subst f. exists (text_colour rnd s a). split.
  - apply shown_in. rewrite generate_stages. unfold texts in I. cbn [In] in I.
    do 3 (destruct I as [I|I]; [injection I as <- <-; apply in_inserts_old; apply in_inserts_old; unfold stage1; apply in_inserts; find_last|]).
    unfold stage3. apply in_inserts. repeat (destruct I as [I|I]; [injection I as <- <-; find_last|]). destruct I.
  - cbn [val]. unfold text_colour. destruct (c_ansi (foreground s)); cbn [is_some]; split; intros N; try discriminate; auto. destruct (N eq_refl).
Qed.
(** A shade is the base colour made lighter or darker by one, two or three half
    spreads; without a suffix by nothing. *)
Theorem C99_shades : forall s n b c z x, In (n, b) shaded -> stands s b c -> In (z, x) shade_suffixes ->
  ~ (s_dark s = true /\ In n ["primary-background"; "secondary-background"]%string) ->
  shown s (str n ++ str x) = Some (lighten c (if z =? 0 then 0%Q else rnd (inject_Z z * rnd (s_spread s / 2))%Q)).
Proof.
  intros s n b c z x I H Z N. apply stands_val in H. subst c. apply shown_in. rewrite generate_stages. do 3 apply in_inserts_old.
  assert (Y : str x = suffix z /\ In z shade_numbers).
  { unfold shade_suffixes in Z. cbn [In] in Z. repeat (destruct Z as [Z|Z]; [injection Z as <- <-; split; [vm_compute; reflexivity|cbn; auto 10]|]). destruct Z. }
  destruct Y as [-> Z']. pose proof (shade_in rnd powf s n _ z (bases rnd s n b I) Z') as S.
  unfold Theme_Model.shade in S. assert (D : is_dark_shade s n = false).
  { unfold is_dark_shade. destruct (s_dark s) eqn:E; [|reflexivity]. cbn [andb]. apply orb_false_iff. split; apply String.eqb_neq; intros ->; apply N; (split; [reflexivity|]); [left|right; left]; reflexivity. }
  rewrite D in S. exact S.
Qed.
(** Colours of the terminal and automatic colours have no shades. *)
Theorem C99_no_shades : forall s n b c z x, In (n, b) shaded -> stands s b c -> no_channels c -> In (z, x) shade_suffixes ->
  ~ (s_dark s = true /\ In n ["primary-background"; "secondary-background"]%string) -> shown s (str n ++ str x) = Some c.
Proof.
  intros s n b c z x I H NC Z N. rewrite (C99_shades s n b c z x I H Z N). f_equal. apply special_iff in NC. unfold Theme_Model.lighten. rewrite NC. reflexivity.
Qed.
(** Shades differ in lightness only, and in this order, never beyond black or
    white: *)
Theorem C99_order : forall s n b c, rounding rnd -> (0 <= s_spread s)%Q -> In (n, b) shaded -> stands s b c -> ~ no_channels c ->
  ~ (s_dark s = true /\ In n ["primary-background"; "secondary-background"]%string) ->
  exists (light : Z -> Q) x y, (forall z w, In (z, w) shade_suffixes -> shown s (str n ++ str w) = Some (from_lab rnd powf (light z) x y (c_a c))) /\
    (forall i j, -3 <= i -> i <= j -> j <= 3 -> (0 <= light i <= light j)%Q /\ (light j <= 100)%Q).
Proof.
  intros s n b c R SP I H NC N. destruct (to_lab rnd powf c) as [[l x] y] eqn:L.
  set (d := fun z => if z =? 0 then 0%Q else rnd (inject_Z z * rnd (s_spread s / 2))%Q).
  exists (fun z => clamp100 (rnd (l - rnd (- d z * 100))%Q)), x, y. split.
  - intros z w Z. rewrite (C99_shades s n b c z w I H Z N). f_equal. fold (d z). unfold Theme_Model.lighten, Theme_Model.darken.
    assert (E : special c = false) by (destruct (special c) eqn:E; [exfalso; apply NC; apply special_iff; exact E|reflexivity]). rewrite E, L. reflexivity.
  - assert (ST : (0 <= rnd (s_spread s / 2))%Q) by (apply rnd_nonneg; [exact R|]; apply Qle_shift_div_l; lra).
    assert (D : forall i j, i <= j -> (d i <= d j)%Q).
    { assert (Z0 : (rnd 0 == 0)%Q) by (apply (rnd_int rnd R 0); cbn; lia).
      assert (M : forall i j, i <= j -> (rnd (inject_Z i * rnd (s_spread s / 2)) <= rnd (inject_Z j * rnd (s_spread s / 2)))%Q).
      { intros i j IJ. apply (rnd_mono rnd R). apply Qmult_le_compat_r; [|exact ST]. rewrite <- Zle_Qle. exact IJ. }
      intros i j IJ. unfold d. destruct (Z.eqb_spec i 0) as [-> |Ni], (Z.eqb_spec j 0) as [-> |Nj]; try lra.
      - pose proof (M 0 j IJ) as X. assert (Y : (rnd (inject_Z 0 * rnd (s_spread s / 2)) == 0)%Q).
        { transitivity (rnd 0); [apply Qle_antisym; apply (rnd_mono rnd R); change (inject_Z 0) with 0%Q; lra|exact Z0]. } lra.
      - pose proof (M i 0 IJ) as X. assert (Y : (rnd (inject_Z 0 * rnd (s_spread s / 2)) == 0)%Q).
        { transitivity (rnd 0); [apply Qle_antisym; apply (rnd_mono rnd R); change (inject_Z 0) with 0%Q; lra|exact Z0]. } lra.
      - exact (M i j IJ). }
    assert (CB : forall q, (0 <= clamp100 q <= 100)%Q).
    { intros q. unfold clamp100, above. destruct (Qle_bool 0 q) eqn:A; cbn [negb]; [|lra]. destruct (Qle_bool q 100) eqn:B; cbn [negb]; [|lra].
      apply Qle_bool_iff in A, B. lra. }
    assert (CM : forall p q, (p <= q)%Q -> (clamp100 p <= clamp100 q)%Q).
    { intros p q PQ. pose proof (CB q) as CQ. pose proof (CB p) as CP. unfold clamp100, above in *. destruct (Qle_bool 0 p) eqn:A; cbn [negb] in *; [|lra].
      destruct (Qle_bool 0 q) eqn:A2; cbn [negb] in *. 2:{ apply Qle_bool_iff in A. apply Qle_bool_false in A2. lra. }
      destruct (Qle_bool p 100) eqn:B; cbn [negb] in *; destruct (Qle_bool q 100) eqn:B2; cbn [negb] in *; try lra.
      apply Qle_bool_false in B. apply Qle_bool_iff in B2. lra. }
    intros i j _ IJ _. pose proof (CB (rnd (l - rnd (- d i * 100)))%Q). pose proof (CB (rnd (l - rnd (- d j * 100)))%Q). split; [|tauto]. split; [tauto|].
    apply CM. apply (rnd_mono rnd R). pose proof (D i j IJ) as DD. assert (rnd (- d j * 100) <= rnd (- d i * 100))%Q by (apply (rnd_mono rnd R); lra). lra.
Qed.
(** In dark themes the shades of "primary-background" and
    "secondary-background" are mixtures of the background, the colour and white,
    and not darker than the one before in any channel. *)
Theorem C99_dark_backgrounds : forall s n b c bg z x, rounding rnd -> sound s -> s_dark s = true -> (0 <= s_spread s)%Q ->
  In (n, b) [("primary-background", Primary); ("secondary-background", Secondary)]%string -> stands s b c -> stands s Background bg -> In (z, x) shade_suffixes ->
  exists v, shown s (str n ++ str x) = Some v /\ (forall k, Z.min (Colour_Spec.get k bg) (Colour_Spec.get k c) <= Colour_Spec.get k v <= 255) /\
    (forall z' x' v' k, In (z', x') shade_suffixes -> z <= z' -> shown s (str n ++ str x') = Some v' -> Colour_Spec.get k v <= Colour_Spec.get k v').
Proof.
  intros s n b c bg z x R SO D SP I H HB Z. apply stands_val in H, HB. subst c bg.
  set (mix := Colour_Model.blend rnd (val rnd s Background) (val rnd s b) (rnd (15 # 100)) (Some 1%Q)).
  assert (BM : bytes mix) by (apply bytes_mix; apply (bytes_val rnd powf); exact SO).
  assert (BW : bytes white) by (apply bytes_const; lia).
  assert (X : forall z x, In (z, x) shade_suffixes -> shown s (str n ++ str x) = Some (Colour_Model.blend rnd mix white (rnd (s_spread s + delta rnd s z))%Q (Some 1%Q))).
  { clear z x Z. intros z x Z. apply shown_in. rewrite generate_stages. do 3 apply in_inserts_old.
    assert (Y : str x = suffix z /\ In z shade_numbers).
    { unfold shade_suffixes in Z. cbn [In] in Z. repeat (destruct Z as [Z|Z]; [injection Z as <- <-; split; [vm_compute; reflexivity|cbn; auto 10]|]). destruct Z. }
    destruct Y as [-> Z']. assert (I2 : In (n, b) shaded) by (destruct I as [I|[I|[]]]; injection I as <- <-; cbn; auto 10).
    pose proof (shade_in rnd powf s n _ z (bases rnd s n b I2) Z') as S. unfold Theme_Model.shade in S.
    assert (E : is_dark_shade s n = true) by (unfold is_dark_shade; rewrite D; destruct I as [I|[I|[]]]; injection I as <- <-; reflexivity).
    rewrite E in S. exact S. }
  eexists. split; [exact (X z x Z)|]. split.
  - intros k. pose proof (C52_blend_between rnd mix white (rnd (s_spread s + delta rnd s z)) (Some 1%Q) k R BM BW) as B.
    pose proof (C52_blend_between rnd (val rnd s Background) (val rnd s b) (rnd (15 # 100)) (Some 1%Q) k R (bytes_val rnd powf s Background SO) (bytes_val rnd powf s b SO)) as B2.
    fold mix in B2. pose proof (BM k) as BMk. unfold between in B, B2. assert (W : Colour_Spec.get k white = 255) by (destruct k; reflexivity). rewrite W in B. lia.
  - intros z' x' v' k Z' ZZ S. rewrite (X z' x' Z') in S. injection S as <-.
    assert (DM : (delta rnd s z <= delta rnd s z')%Q).
    { assert (ST : (0 <= step rnd s)%Q) by (apply rnd_nonneg; [exact R|]; apply Qle_shift_div_l; lra).
      assert (Z0 : (rnd 0 == 0)%Q) by (apply (rnd_int rnd R 0); cbn; lia).
      unfold delta. destruct (Z.eqb_spec z 0) as [-> |Ni], (Z.eqb_spec z' 0) as [-> |Nj]; try lra.
      - rewrite <- Z0. apply (rnd_mono rnd R). setoid_replace 0%Q with (inject_Z 0 * step rnd s)%Q by (change (inject_Z 0) with 0%Q; ring).
        apply Qmult_le_compat_r; [|exact ST]. rewrite <- Zle_Qle. exact ZZ.
      - rewrite <- Z0. apply (rnd_mono rnd R). setoid_replace 0%Q with (inject_Z 0 * step rnd s)%Q by (change (inject_Z 0) with 0%Q; ring).
        apply Qmult_le_compat_r; [|exact ST]. rewrite <- Zle_Qle. exact ZZ.
      - apply (rnd_mono rnd R). apply Qmult_le_compat_r; [|exact ST]. rewrite <- Zle_Qle. exact ZZ. }
    assert (F : (rnd (s_spread s + delta rnd s z) <= rnd (s_spread s + delta rnd s z'))%Q) by (apply (rnd_mono rnd R); lra).
    destruct (C52_monotone rnd mix white _ _ (Some 1%Q) (Some 1%Q) k R BM BW F) as [M _]. unfold between in M.
    assert (W : Colour_Spec.get k white = 255) by (destruct k; reflexivity). rewrite W in M.
    pose proof (bytes_mix rnd mix white (rnd (s_spread s + delta rnd s z)) (Some 1%Q) BM BW k). lia.
Qed.
(** Muted colours lie between the colour and the background, coloured texts
    between black or white and the colour, scrollbars between their track and
    the primary colour; all tracks are the darker shade of the background. *)
Theorem C99_mixes : forall s, rounding rnd -> accurate rnd -> sound s ->
  (forall n b c bg, In (n, b) muteds -> stands s b c -> stands s Background bg ->
     exists v, shown s (str n) = Some v /\ forall k, between (Colour_Spec.get k c) (Colour_Spec.get k bg) (Colour_Spec.get k v)) /\
  (forall n b c bg, In (n, b) coloured_texts -> stands s b c -> stands s Background bg ->
     exists v, shown s (str n) = Some v /\ c_a v = s_text_alpha s /\
       forall k, between (Colour_Spec.get k (contrast_text rnd bg 1%Q)) (Colour_Spec.get k c) (Colour_Spec.get k v)) /\
  (exists t, shown s (str "background-darken-1") = Some t /\ (forall n, In n tracks -> shown s (str n) = Some t) /\
     forall n, In n ["scrollbar"; "scrollbar-hover"]%string -> exists v, shown s (str n) = Some v /\ (c_a v == 1)%Q /\
       forall k, between (Colour_Spec.get k t) (Colour_Spec.get k (s_primary s)) (Colour_Spec.get k v)).
Proof.
  intros s R AC SO. split; [|split].
  - intros n b c bg I H HB. apply stands_val in H, HB. subst c bg. exists (muted rnd s (val rnd s b)). split.
    + apply shown_in. rewrite generate_stages. do 2 apply in_inserts_old. unfold stage1. apply in_inserts.
      unfold muteds in I. cbn [In] in I. repeat (destruct I as [I|I]; [injection I as <- <-; cbn [val]; find_last|]). destruct I.
    + intros k. apply C52_blend_between; [exact R|apply (bytes_val rnd powf); exact SO|apply (bytes_val rnd powf s Background); exact SO].
  - intros n b c bg I H HB. apply stands_val in H, HB. subst c bg. exists (text_of rnd s (val rnd s b)). split; [|split].
    + apply shown_in. rewrite generate_stages. do 2 apply in_inserts_old. unfold stage1. apply in_inserts.
      unfold coloured_texts in I. cbn [In] in I. repeat (destruct I as [I|I]; [injection I as <- <-; cbn [val]; find_last|]). destruct I.
    + unfold text_of, Theme_Model.tint, Colour_Model.tint, contrast, contrast_text. destruct (Qle_bool _ _); reflexivity.
    + intros k. assert (A : (0 <= rnd (66 # 100) <= 1)%Q) by (split; [apply rnd_nonneg; [exact R|lra]|apply rnd_le_one; [exact R|lra]]).
      destruct (C52_tint_between rnd (contrast rnd s) (with_alpha (val rnd s b) (rnd (66 # 100))) k R (bytes_contrast rnd powf _ _) (bytes_same _ _ (bytes_val rnd powf s b SO)) A) as [T _].
      unfold text_of. assert (G1 : Colour_Spec.get k (with_alpha (val rnd s b) (rnd (66 # 100))) = Colour_Spec.get k (val rnd s b)) by (destruct k; reflexivity). rewrite G1 in T.
      assert (G2 : Colour_Spec.get k (contrast_text rnd (val rnd s Background) 1%Q) = Colour_Spec.get k (contrast rnd s)) by (unfold contrast, contrast_text; cbn [val]; destruct (Qle_bool _ _); destruct k; reflexivity).
      rewrite G2. exact T.
  - exists (track rnd powf s). split; [|split].
    + rewrite <- (app_nil_r (str "background-darken-1")). change (str "background-darken-1" ++ []) with (str "background" ++ str "-darken-1").
      rewrite (C99_shades s "background" Background (background s) (-1) "-darken-1"); [reflexivity|cbn; auto 10|exact (val_stands rnd s Background)|cbn; auto 10|].
      intros [_ [X|[X|[]]]]; discriminate.
    + intros n I. apply shown_in. rewrite generate_stages. apply in_inserts_old. unfold stage2. apply in_inserts.
      unfold tracks in I. cbn [In] in I. repeat (destruct I as [I|I]; [subst n; find_last|]). destruct I.
    + assert (BT : bytes (track rnd powf s)).
      { unfold track, Theme_Model.lighten, Theme_Model.darken. pose proof (bytes_val rnd powf s Background SO) as B. cbn [val] in B. destruct (special (background s)); [exact B|].
        destruct (to_lab rnd powf (background s)) as [[l x] y]. apply bytes_const; apply u8_clamp_byte. }
      assert (G : forall a, (0 < rnd a < 1)%Q -> (c_a (scrollbar_of rnd s (track rnd powf s) a) == 1)%Q /\
        forall k, between (Colour_Spec.get k (track rnd powf s)) (Colour_Spec.get k (s_primary s)) (Colour_Spec.get k (scrollbar_of rnd s (track rnd powf s) a))).
      { intros a A. split.
        - unfold scrollbar_of, Theme_Model.blend, Colour_Model.blend. destruct (Qle_bool (rnd a) 0) eqn:E; [apply Qle_bool_iff in E; lra|].
          destruct (Qle_bool 1 (rnd a)) eqn:E2; [apply Qle_bool_iff in E2; lra|]. reflexivity.
        - intros k. unfold scrollbar_of. assert (X : Colour_Spec.get k (s_primary s) = Colour_Spec.get k (with_alpha (s_primary s) (rnd a))) by (destruct k; reflexivity). rewrite X.
          apply C52_blend_between; [exact R|exact BT|apply bytes_same; exact (proj1 SO)]. }
      assert (A : (0 < rnd (4 # 10) < 1)%Q /\ (0 < rnd (5 # 10) < 1)%Q).
      { pose proof (AC (4 # 10)) as X. pose proof (AC (5 # 10)) as Y. apply Qabs.Qabs_Qle_condition in X, Y. cbn [Qabs.Qabs Z.abs] in X, Y.
        change (Z.pos (2 ^ 24)) with 16777216 in *. assert (E : (1 # 2 ^ 24 <= 1 # 10)%Q) by (vm_compute; discriminate). lra. }
      intros n [<-|[<-|[]]]; eexists; (split; [apply shown_in; rewrite generate_stages; apply in_inserts_old; unfold stage2; apply in_inserts; find_last|apply G; tauto]).
Qed.
(** How much of each: *)
Theorem C99_amounts : forall s bg, stands s Background bg ->
  (forall n b c, In (n, b) muteds -> stands s b c -> shown s (str n) = Some (Colour_Model.blend rnd c bg (rnd (7 # 10)) None)) /\
  (forall n b c, In (n, b) coloured_texts -> stands s b c ->
     shown s (str n) = Some (Colour_Model.tint rnd (contrast_text rnd bg (s_text_alpha s)) (with_alpha c (rnd (66 # 100))))) /\
  (forall t, shown s (str "background-darken-1") = Some t ->
     shown s (str "scrollbar") = Some (Colour_Model.blend rnd t (with_alpha (s_primary s) (rnd (4 # 10))) (rnd (4 # 10)) (Some 1%Q)) /\
     shown s (str "scrollbar-hover") = Some (Colour_Model.blend rnd t (with_alpha (s_primary s) (rnd (5 # 10))) (rnd (5 # 10)) (Some 1%Q))) /\
  (forall n b c z x, s_dark s = true -> In (n, b) [("primary-background", Primary); ("secondary-background", Secondary)]%string -> stands s b c -> In (z, x) shade_suffixes ->
     shown s (str n ++ str x) = Some (Colour_Model.blend rnd (Colour_Model.blend rnd bg c (rnd (15 # 100)) (Some 1%Q)) (rgb_of 255 255 255)
       (rnd (s_spread s + (if z =? 0 then 0 else rnd (inject_Z z * rnd (s_spread s / 2))))%Q) (Some 1%Q))).
Proof.
  intros s bg HB. apply stands_val in HB. subst bg. split; [|split; [|split]].
  - intros n b c I H. apply stands_val in H. subst c. apply shown_in. rewrite generate_stages. do 2 apply in_inserts_old. unfold stage1. apply in_inserts.
    change (Colour_Model.blend rnd (val rnd s b) (val rnd s Background) (rnd (7 # 10)) None) with (muted rnd s (val rnd s b)).
    unfold muteds in I. cbn [In] in I. repeat (destruct I as [I|I]; [injection I as <- <-; cbn [val]; find_last|]). destruct I.
  - intros n b c I H. apply stands_val in H. subst c. apply shown_in. rewrite generate_stages. do 2 apply in_inserts_old. unfold stage1. apply in_inserts.
    change (Colour_Model.tint rnd (contrast_text rnd (val rnd s Background) (s_text_alpha s)) (with_alpha (val rnd s b) (rnd (66 # 100)))) with (text_of rnd s (val rnd s b)).
    unfold coloured_texts in I. cbn [In] in I. repeat (destruct I as [I|I]; [injection I as <- <-; cbn [val]; find_last|]). destruct I.
  - intros t T. assert (E : t = track rnd powf s).
    { change (str "background-darken-1") with (str "background" ++ str "-darken-1") in T.
      rewrite (C99_shades s "background" Background (background s) (-1) "-darken-1") in T; [injection T as <-; reflexivity|cbn; auto 10|exact (val_stands rnd s Background)|cbn; auto 10|].
      intros [_ [X|[X|[]]]]; discriminate. }
    subst t. split; apply shown_in; rewrite generate_stages; apply in_inserts_old; unfold stage2; apply in_inserts; find_last.
  - intros n b c z x D I H Z. apply stands_val in H. subst c. apply shown_in. rewrite generate_stages. do 3 apply in_inserts_old.
    assert (Y : str x = suffix z /\ In z shade_numbers).
    { unfold shade_suffixes in Z. cbn [In] in Z. repeat (destruct Z as [Z|Z]; [injection Z as <- <-; split; [vm_compute; reflexivity|cbn; auto 10]|]). destruct Z. }
    destruct Y as [-> Z']. assert (I2 : In (n, b) shaded) by (destruct I as [I|[I|[]]]; injection I as <- <-; cbn; auto 10).
    pose proof (shade_in rnd powf s n _ z (bases rnd s n b I2) Z') as S. unfold Theme_Model.shade in S.
    assert (E : is_dark_shade s n = true) by (unfold is_dark_shade; rewrite D; destruct I as [I|[I|[]]]; injection I as <- <-; reflexivity).
    rewrite E in S. exact S.
Qed.
(** The edges: a little darker than the surface; the active surface: lighter by
    two fifths of the spread. *)
Theorem C99_surfaces : forall s c, stands s Surface c ->
  shown s (str "border-blurred") = Some (darken c (rnd (25 # 1000))) /\ shown s (str "surface-active") = Some (lighten c (rnd (s_spread s / (5 # 2))%Q)).
Proof.
  intros s c H. apply stands_val in H. subst c. split; apply shown_in; rewrite generate_stages; unfold stage3; apply in_inserts; cbn [val]; find_last.
Qed.
(** If no colour given is a reference to a theme, no variable is. *)
Theorem C99_final : forall s n c, settled s -> shown s n = Some c -> c_theme c = None.
Proof.
  intros s n c ST H. apply get_some in H. cbn [from_color_system t_colors] in H. pose proof (theme_generate rnd powf s ST) as F. rewrite Forall_forall in F.
  apply F. apply in_map_iff. exists (n, c). auto.
Qed.
(** The text styles of any theme made from colours. *)
Theorem C99_styles : forall s x n t, get_style (from_color_system rnd powf x s) n = Some t <->
  exists k b u r, In (k, (b, u, r)) style_table /\ n = str k /\ t = TextStyle b false false u false false false r false false None.
Proof.
  intros s x n t. unfold get_style. cbn [from_color_system t_styles].
  assert (ND : NoDup (map fst generate_styles)) by (apply distinct_nodup; vm_compute; reflexivity).
  assert (E : generate_styles = rev (map (fun e => (str (fst e), style_of (fst (fst (snd e))) (snd (fst (snd e))) (snd (snd e)))) style_table)) by reflexivity.
  split.
  - intros H. apply get_some in H. rewrite E in H. apply in_rev in H. apply in_map_iff in H. destruct H as [[k [[b u] r]] [H I]]. injection H as <- <-.
    exists k, b, u, r. auto.
  - intros [k [b [u [r [I [-> ->]]]]]]. apply get_in; [exact ND|]. rewrite E. apply in_rev. rewrite rev_involutive. apply in_map_iff. exists (k, (b, u, r)). auto.
Qed.

(** *** C99 The built-in themes *)
Lemma standard_rows : forall l m, (forall k n p d fs, In (k, n, p, d, fs) l -> exists s, standard_theme rnd p d fs = Ok s) ->
  exists m', standard_from rnd powf l m = Ok m' /\ map fst m' = rev (map (fun r => str (fst (fst (fst (fst r))))) l) ++ map fst m /\
    forall x t, In (x, t) m' <-> In (x, t) m \/ exists k n p d fs s, In (k, n, p, d, fs) l /\ standard_theme rnd p d fs = Ok s /\ x = str k /\ t = from_color_system rnd powf (str n) s.
Proof.
  induction l as [|[[[[k n] p] d] fs] l IH]; intros m A.
  - exists m. split; [reflexivity|]. split; [reflexivity|]. intros x t. split; [auto|]. intros [H|[k [n [p [d [fs [s [[] _]]]]]]]]. exact H.
  - destruct (A k n p d fs (or_introl eq_refl)) as [s S]. cbn [standard_from]. rewrite S. cbn [bind].
    destruct (IH (insert (str k) (from_color_system rnd powf (str n) s) m)) as [m' [E [K I]]].
    { intros k' n' p' d' fs' H. apply (A k' n' p' d' fs'). right. exact H. }
    exists m'. split; [exact E|]. split; [rewrite K; cbn [map rev insert fst]; rewrite <- app_assoc; reflexivity|].
    intros x t. rewrite I. split.
    + intros [[H|H]|[k' [n' [p' [d' [fs' [s' [H1 H2]]]]]]]].
      * injection H as <- <-. right. exists k, n, p, d, fs, s. split; [left; reflexivity|auto].
      * auto.
      * right. exists k', n', p', d', fs', s'. split; [right; exact H1|exact H2].
    + intros [H|[k' [n' [p' [d' [fs' [s' [[H1|H1] [H2 [H3 H4]]]]]]]]]].
      * left. right. exact H.
      * injection H1 as <- <- <- <- <-. rewrite S in H2. injection H2 as <-. subst. left. left. reflexivity.
      * right. exists k', n', p', d', fs', s'. auto.
Qed.
Definition good_row (r : string * string * string * bool * list (field * string)) : bool :=
  let '(k, n, p, d, fs) := r in
  match standard_theme rnd p d fs with
  | Ok s =>
      (existsb (fun e => String.eqb (fst e) k && Bool.eqb (snd e) d) builtin && String.eqb k n && Bool.eqb (s_dark s) d &&
       Bool.eqb d (negb (Qle_bool (1 # 2) (luma (background s)))) && Bool.eqb d (negb (Qle_bool (luma (foreground s)) (luma (background s)))))
  | _ => false
  end.
Lemma rows_good : forallb good_row standard_table = true. Proof. vm_compute. reflexivity. Qed.
(** The built-in themes: there are sixteen, each under its own name; the dark
    ones have light text on a background darker than middle grey and the light
    ones dark text on a lighter one. *)
Theorem C99_builtin : exists m, standard_themes rnd powf = Ok m /\
  (forall k, (exists t, Theme_Model.get m k = Some t) <-> exists n d, In (n, d) builtin /\ k = str n) /\
  forall n d t, In (n, d) builtin -> Theme_Model.get m (str n) = Some t ->
    t_name t = str n /\ t_dark t = d /\
    exists bg fg, get_color t (str "input-cursor-foreground") = Some bg /\ get_color t (str "input-cursor-background") = Some fg /\
      (d = true <-> (luma bg < 1 # 2)%Q) /\ (d = true <-> (luma bg < luma fg)%Q).
Proof.
  pose proof rows_good as RG. rewrite forallb_forall in RG.
  assert (OK : forall k n p d fs, In (k, n, p, d, fs) standard_table -> exists s, standard_theme rnd p d fs = Ok s).
  { intros k n p d fs I. specialize (RG _ I). cbn [good_row] in RG. destruct (standard_theme rnd p d fs) as [s| |]; try discriminate. eauto. }
  destruct (standard_rows standard_table [] OK) as [m [E [K I]]]. exists m. split; [exact E|].
  assert (ND : NoDup (map fst m)) by (rewrite K; apply distinct_nodup; vm_compute; reflexivity).
  assert (NK : forall k, In k (map fst m) <-> exists n d, In (n, d) builtin /\ k = str n).
  { intros k. rewrite K. split.
    - intros H. rewrite app_nil_r in H. apply in_rev in H. apply in_map_iff in H. destruct H as [[[[[k' n] p] d] fs] [H J]]. cbn [fst] in H. subst k. pose proof (RG _ J) as G. cbn [good_row] in G.
      destruct (standard_theme rnd p d fs); try discriminate. repeat (apply andb_true_iff in G; destruct G as [G ?]). apply existsb_exists in G. destruct G as [[n2 d2] [G1 G2]]. cbn [fst snd] in G2.
      apply andb_true_iff in G2. destruct G2 as [G2 _]. apply String.eqb_eq in G2. subst n2. eauto.
    - intros [n [d [J ->]]]. rewrite app_nil_r. apply in_rev. rewrite rev_involutive.
      assert (B : forallb (fun e => existsb (fun r => String.eqb (fst (fst (fst (fst r)))) (fst e)) standard_table) builtin = true) by (vm_compute; reflexivity).
      rewrite forallb_forall in B. specialize (B _ J). apply existsb_exists in B. destruct B as [r [B1 B2]]. apply String.eqb_eq in B2. cbn [fst] in B2. apply in_map_iff. exists r. rewrite B2. auto. }
  split.
  - intros k. rewrite <- NK. pose proof (get_none _ m k) as G. destruct (Theme_Model.get m k) as [t|] eqn:X.
    + split; [intros _|eauto]. apply get_some in X. apply (in_map fst) in X. exact X.
    + split; [intros [t H]; discriminate|]. intros H. exfalso. exact (proj1 G eq_refl H).
  - intros n d t B H. apply get_some in H. apply I in H. destruct H as [[]|[k' [n' [p [d' [fs [s [J [S [X ->]]]]]]]]]].
    pose proof (RG _ J) as G. cbn [good_row] in G. rewrite S in G. repeat (apply andb_true_iff in G; destruct G as [G ?]).
    apply existsb_exists in G. destruct G as [[n2 d2] [G1 G2]]. cbn [fst snd] in G2. apply andb_true_iff in G2. destruct G2 as [G2 G3].
    apply String.eqb_eq in G2. apply eqb_prop in G3. subst n2 d2.
    assert (U : forallb (fun e => forallb (fun f => implb (text_eqb (str (fst e)) (str (fst f))) (Bool.eqb (snd e) (snd f))) builtin) builtin = true) by (vm_compute; reflexivity).
    rewrite forallb_forall in U. specialize (U _ B). rewrite forallb_forall in U. specialize (U _ G1). cbn [fst snd] in U. rewrite X in U.
    rewrite (proj2 (text_eqb_iff _ _) eq_refl) in U. cbn [implb] in U. apply eqb_prop in U. subst d'.
    repeat match goal with H : String.eqb _ _ = true |- _ => apply String.eqb_eq in H | H : Bool.eqb _ _ = true |- _ => apply eqb_prop in H end. subst n'.
    split; [cbn [from_color_system t_name]; symmetry; exact X|]. split; [cbn [from_color_system t_dark]; assumption|].
    exists (background s), (foreground s).
    split; [exact (C99_copies s "input-cursor-foreground" Background _ ltac:(cbn; auto 20) (val_stands rnd s Background))|].
    split; [exact (C99_copies s "input-cursor-background" Foreground _ ltac:(cbn; auto 20) (val_stands rnd s Foreground))|].
    assert (T : forall a b, (negb (Qle_bool a b) = true <-> (b < a)%Q)).
    { intros a b. split; intros Z; [apply Qle_bool_false; destruct (Qle_bool a b); [discriminate|reflexivity]|].
      destruct (Qle_bool a b) eqn:Y; [apply Qle_bool_iff in Y; exfalso; lra|reflexivity]. }
    rewrite <- !T. split; [match goal with H : d = negb (Qle_bool (1 # 2) _) |- _ => rewrite H end; tauto|].
    match goal with H : d = negb (Qle_bool (luma (foreground _)) _) |- _ => rewrite H end. tauto.
Qed.

(** *** C100 References to the colours of a theme *)
Variable parse_float : text -> option Q.
Notation resolve := (resolve_colour rnd powf parse_float).
(** A colour that is not a reference does not depend on the theme. *)
Theorem C100_plain : forall c t, c_theme c = None -> resolve c t = c.
Proof. intros c t H. unfold resolve_colour. rewrite H. reflexivity. Qed.
(** A reference to a variable of the theme is the theme's colour; an opacity below 1
    in the reference replaces the colour's own. *)
Theorem C100_defined : forall c t n x, c_theme c = Some n -> get_color t n = Some x ->
  ((1 <= c_a c)%Q -> resolve c t = x) /\ ((c_a c < 1)%Q -> resolve c t = with_alpha x (c_a c)).
Proof.
  intros c t n x H G. unfold resolve_colour. rewrite H, G. split; intros A.
  - rewrite (proj2 (Qle_bool_iff _ _) A). reflexivity.
  - destruct (Qle_bool 1 (c_a c)) eqn:E; [apply Qle_bool_iff in E; lra|reflexivity].
Qed.
(** Any documented variable is the colour of the theme, in any theme made from
    colours, and not a reference any more. *)
Theorem C100_documented : forall c x s n, c_theme c = Some n -> In n documented -> settled s ->
  exists v, get_color (from_color_system rnd powf x s) n = Some v /\ c_theme (resolve c (from_color_system rnd powf x s)) = None /\
    forall k, Colour_Spec.get k (resolve c (from_color_system rnd powf x s)) = Colour_Spec.get k v.
Proof.
  intros c x s n H D ST. apply (C99_names s) in D. destruct D as [v V]. exists v. split; [exact V|].
  destruct (C100_defined c (from_color_system rnd powf x s) n v H V) as [A B]. pose proof (C99_final s n v ST V) as F.
  destruct (Qlt_le_dec (c_a c) 1) as [L|L]; [rewrite (B L)|rewrite (A L)]; (split; [exact F|]); intros []; reflexivity.
Qed.
(** Text after the last two dashes of a name. *)
Lemma last_dash_at : forall a b, ~ In 45 b -> last_dash (a ++ [45] ++ b) = Some (a, b).
Proof.
  intros a b N. unfold last_dash. rewrite rev_app_distr. cbn [app rev]. rewrite <- app_assoc. cbn [app].
  assert (S : forall u v, ~ In 45 u -> split_at_char 45 (u ++ 45 :: v) = Some (u, v)).
  { induction u as [|w u IH]; intros v M; [reflexivity|]. cbn [app split_at_char]. destruct (Z.eqb_spec w 45) as [-> |E]; [exfalso; apply M; left; reflexivity|].
    rewrite IH by (intros M2; apply M; right; exact M2). reflexivity. }
  rewrite S by (intros M; apply N; apply in_rev; exact M). rewrite !rev_involutive. reflexivity.
Qed.
(** A name the theme does not have, if it ends in "-lighten-" or "-darken-" and a
    number, is the colour before that made lighter or darker by that amount. *)
Theorem C100_by_amount : forall c t b m a q v, c_theme c = Some (b ++ str "-" ++ m ++ str "-" ++ a) -> get_color t (b ++ str "-" ++ m ++ str "-" ++ a) = None ->
  ~ In 45 a -> parse_float a = Some q -> get_color t b = Some v -> (1 <= c_a c)%Q ->
  (m = str "lighten" -> resolve c t = lighten v q) /\ (m = str "darken" -> resolve c t = darken v q).
Proof.
  intros c t b m a q v H G N P V A.
  assert (X : ~ In 45 m -> rsplit3 (b ++ str "-" ++ m ++ str "-" ++ a) = Some (b, m, a)).
  { intros NM. pose proof (last_dash_at (b ++ [45] ++ m) a N) as D1. pose proof (last_dash_at b m NM) as D2.
    assert (W : b ++ str "-" ++ m ++ str "-" ++ a = (b ++ [45] ++ m) ++ [45] ++ a) by (rewrite <- !app_assoc; reflexivity).
    unfold rsplit3. rewrite W. match type of D1 with ?l = ?r => match goal with |- match ?x with _ => _ end = _ => replace x with r by (symmetry; exact D1) end end.
    match type of D2 with ?l = ?r => match goal with |- match ?x with _ => _ end = _ => replace x with r by (symmetry; exact D2) end end. reflexivity. }
  unfold resolve_colour. rewrite H, G, (proj2 (Qle_bool_iff _ _) A). cbn [negb].
  split; intros ->; (rewrite X; [|intros I; vm_compute in I; intuition discriminate]); rewrite P, V; reflexivity.
Qed.
(** Every other name is white. *)
Theorem C100_white : forall c t n, c_theme c = Some n -> get_color t n = None -> (1 <= c_a c)%Q ->
  (forall b m a q, n = b ++ str "-" ++ m ++ str "-" ++ a -> In m [str "lighten"; str "darken"] -> ~ In 45 a -> parse_float a = Some q -> False) ->
  resolve c t = rgb_of 255 255 255.
Proof.
  intros c t n H G A N. unfold resolve_colour. rewrite H, G, (proj2 (Qle_bool_iff _ _) A). cbn [negb].
  destruct (rsplit3 n) as [[[b m] a]|] eqn:S; [|reflexivity]. destruct (parse_float a) as [q|] eqn:P; [|reflexivity].
  assert (L : forall u x y, last_dash u = Some (x, y) -> u = x ++ [45] ++ y /\ ~ In 45 y).
  { intros u x y D. unfold last_dash in D. destruct (split_at_char 45 (rev u)) as [[p r]|] eqn:Z; [|discriminate]. injection D as <- <-.
    assert (W : forall w p r, split_at_char 45 w = Some (p, r) -> w = p ++ 45 :: r /\ ~ In 45 p).
    { induction w as [|h w IH]; intros p' r' Y; [discriminate|]. cbn [split_at_char] in Y. destruct (Z.eqb_spec h 45) as [-> |E].
      - injection Y as <- <-. split; [reflexivity|intros []].
      - destruct (split_at_char 45 w) as [[p2 r2]|]; [|discriminate]. injection Y as <- <-. destruct (IH _ _ eq_refl) as [-> M].
        split; [reflexivity|]. intros [F|F]; [exact (E F)|exact (M F)]. }
    apply W in Z. destruct Z as [Z M]. split; [|intros F; apply M; apply in_rev; exact F].
    rewrite <- (rev_involutive u), Z, rev_app_distr. cbn [rev app]. rewrite <- app_assoc. reflexivity. }
  unfold rsplit3 in S. destruct (last_dash n) as [[u a']|] eqn:D1; [|discriminate]. destruct (last_dash u) as [[b' m']|] eqn:D2; [|discriminate].
  injection S as -> -> ->. apply L in D1, D2. destruct D1 as [-> N1]. destruct D2 as [-> N2].
  assert (F : In m [str "lighten"; str "darken"] -> False).
  { intros I. apply (N b m a q); auto. change (str "-") with [45]. rewrite <- !app_assoc. reflexivity. }
  destruct (text_eqb m (str "lighten")) eqn:E1; [apply text_eqb_iff in E1; exfalso; apply F; left; symmetry; exact E1|].
  destruct (text_eqb m (str "darken")) eqn:E2; [apply text_eqb_iff in E2; exfalso; apply F; right; left; symmetry; exact E2|reflexivity].
Qed.
(** Whatever the name, the opacity of the reference counts if it is below 1. *)
Theorem C100_opacity : forall c t n, c_theme c = Some n -> (c_a c < 1)%Q -> c_a (resolve c t) = c_a c.
Proof.
  intros c t n H A. unfold resolve_colour. rewrite H. destruct (Qle_bool 1 (c_a c)) eqn:E; [apply Qle_bool_iff in E; lra|reflexivity].
Qed.
(** What is resolved is not a reference if no colour of the theme is. *)
Theorem C100_final : forall c t, (forall n x, get_color t n = Some x -> c_theme x = None) -> c_theme (resolve c t) = None.
Proof.
  intros c t F. unfold resolve_colour. destruct (c_theme c) as [n|] eqn:H; [|exact H].
  match goal with |- c_theme (if _ then with_alpha ?f _ else ?f) = None => set (found := f) end.
  assert (G : c_theme found = None).
  { subst found. destruct (get_color t n) as [x|] eqn:X; [exact (F n x X)|]. destruct (rsplit3 n) as [[[b m] a]|]; [|reflexivity]. destruct (parse_float a); [|reflexivity].
    assert (B : c_theme (match get_color t b with Some x => x | None => white end) = None) by (destruct (get_color t b) eqn:Y; [exact (F _ _ Y)|reflexivity]).
    destruct (text_eqb m _); [apply theme_lighten; exact B|]. destruct (text_eqb m _); [apply theme_darken; exact B|reflexivity]. }
  destruct (negb _); [|exact G]. destruct found; exact G.
Qed.
(** Amounts are fractions of the whole range of lightness, not steps: from 2
    on, all are full lightness. *)
Lemma div_nonneg : forall x y, rounding rnd -> (0 <= x)%Q -> (0 <= y)%Q -> (0 <= rnd (x / y))%Q.
Proof.
  intros x y R X Y. apply rnd_nonneg; [exact R|]. unfold Qdiv. apply Qmult_le_0_compat; [exact X|]. apply Qinv_le_0_compat. exact Y.
Qed.
Lemma linear_nonneg : forall v, rounding rnd -> (forall x y, (0 <= powf x y)%Q) -> 0 <= v -> (0 <= linear rnd powf v)%Q.
Proof.
  intros v R P V. unfold linear. assert (A : (0 <= rnd (inject_Z v / 255))%Q).
  { apply div_nonneg; [exact R| |lra]. change 0%Q with (inject_Z 0). rewrite <- Zle_Qle. exact V. }
  destruct (above _ _); [apply P|]. apply div_nonneg; [exact R|exact A|]. apply rnd_nonneg; [exact R|lra].
Qed.
Lemma row_nonneg : forall a b c x y z, rounding rnd -> (0 <= a)%Q -> (0 <= b)%Q -> (0 <= c)%Q -> (0 <= x)%Q -> (0 <= y)%Q -> (0 <= z)%Q -> (0 <= row rnd a b c x y z)%Q.
Proof.
  intros a b c x y z R A B C X Y Z. unfold row.
  assert (M : forall p q, (0 <= p)%Q -> (0 <= q)%Q -> (0 <= rnd (p * rnd q))%Q) by (intros p q U V; apply rnd_nonneg; [exact R|]; apply Qmult_le_0_compat; [exact U|apply rnd_nonneg; assumption]).
  pose proof (M x a X A). pose proof (M y b Y B). pose proof (M z c Z C). apply rnd_nonneg; [exact R|].
  assert (0 <= rnd (rnd (x * rnd a) + rnd (y * rnd b)))%Q by (apply rnd_nonneg; [exact R|lra]). lra.
Qed.
Lemma curve_nonneg : forall x, rounding rnd -> (forall x y, (0 <= powf x y)%Q) -> (0 <= x)%Q -> (0 <= lab_curve rnd powf x)%Q.
Proof.
  intros x R P X. unfold lab_curve. destruct (above _ _); [apply P|]. apply rnd_nonneg; [exact R|].
  assert (0 <= off rnd)%Q by (apply div_nonneg; [exact R|lra|lra]).
  assert (0 <= rnd (rnd (7787 # 1000) * x))%Q by (apply rnd_nonneg; [exact R|]; apply Qmult_le_0_compat; [apply rnd_nonneg; [exact R|lra]|exact X]). lra.
Qed.
Theorem C100_amounts : forall v q, rounding rnd -> (forall x y, (0 <= powf x y)%Q) -> bytes v -> ~ no_channels v -> (2 <= q)%Q ->
  exists l a b, to_lab rnd powf v = (l, a, b) /\ lighten v q = from_lab rnd powf 100 a b (c_a v).
Proof.
  intros v q R P B NC H. destruct (to_lab rnd powf v) as [[l a] b] eqn:E. exists l, a, b. split; [reflexivity|].
  unfold Theme_Model.lighten, Theme_Model.darken. assert (S : special v = false) by (destruct (special v) eqn:S; [exfalso; apply NC; apply special_iff; exact S|reflexivity]). rewrite S, E.
  assert (L : (-16 <= l)%Q).
  { unfold to_lab in E. injection E as <- _ _. assert (M : (rnd (inject_Z (-16)) == inject_Z (-16))%Q) by (apply (rnd_int rnd R); cbn; lia).
    rewrite <- M. apply (rnd_mono rnd R). pose proof (curve_nonneg (rnd (row rnd (2126 # 100) (7152 # 100) (722 # 100) (linear rnd powf (c_r v)) (linear rnd powf (c_g v)) (linear rnd powf (c_b v)) / 100)) R P) as C.
    assert (Y : (0 <= rnd (row rnd (2126 # 100) (7152 # 100) (722 # 100) (linear rnd powf (c_r v)) (linear rnd powf (c_g v)) (linear rnd powf (c_b v)) / 100))%Q).
    { apply div_nonneg; [exact R| |lra]. apply row_nonneg; try exact R; try lra; (apply linear_nonneg; [exact R|exact P|]); [exact (proj1 (B Red))|exact (proj1 (B Green))|exact (proj1 (B Blue))]. }
    specialize (C Y). revert C. set (y := lab_curve rnd powf _). intros C.
    assert (0 <= rnd (116 * y))%Q by (apply rnd_nonneg; [exact R|]; apply Qmult_le_0_compat; [lra|exact C]). change (inject_Z (-16)) with (-16)%Q. lra. }
  assert (X : (rnd (- q * 100) <= -200)%Q).
  { assert (M : (rnd (inject_Z (-200)) == inject_Z (-200))%Q) by (apply (rnd_int rnd R); cbn; lia). change (-200)%Q with (inject_Z (-200)). rewrite <- M. apply (rnd_mono rnd R). change (inject_Z (-200)) with (-200)%Q. lra. }
  assert (Y : (184 <= rnd (l - rnd (- q * 100)))%Q).
  { assert (M : (rnd (inject_Z 184) == inject_Z 184)%Q) by (apply (rnd_int rnd R); cbn; lia). change 184%Q with (inject_Z 184). rewrite <- M. apply (rnd_mono rnd R). change (inject_Z 184) with (184)%Q. lra. }
  f_equal. unfold clamp100, above. destruct (Qle_bool 0 _) eqn:Z1; [|apply Qle_bool_false in Z1; lra]. cbn [negb].
  destruct (Qle_bool _ 100) eqn:Z2; [apply Qle_bool_iff in Z2; lra|]. reflexivity.
Qed.
(** Text styles: a reference is the theme's style, or none if the theme does
    not have it. *)
Theorem C100_styles : forall st x s, (ts_theme st = None -> resolve_style st (from_color_system rnd powf x s) = st) /\
  (forall k b u r, ts_theme st = Some (str k) -> In (k, (b, u, r)) style_table ->
     resolve_style st (from_color_system rnd powf x s) = TextStyle b false false u false false false r false false None) /\
  (forall n, ts_theme st = Some n -> (forall k v, In (k, v) style_table -> n <> str k) -> resolve_style st (from_color_system rnd powf x s) = no_style).
Proof.
  intros st x s. unfold resolve_style. split; [intros ->; reflexivity|]. split.
  - intros k b u r -> I. rewrite (proj2 (C99_styles s x (str k) _) (ex_intro _ k (ex_intro _ b (ex_intro _ u (ex_intro _ r (conj I (conj eq_refl eq_refl))))))). reflexivity.
  - intros n -> N. destruct (get_style (from_color_system rnd powf x s) n) as [t|] eqn:E; [|reflexivity]. apply C99_styles in E.
    destruct E as [k [b [u [r [I [-> _]]]]]]. destruct (N k _ I eq_refl).
Qed.
End Themes.
Print Assumptions C99_builder. Print Assumptions C99_builder_rest. Print Assumptions C99_bases. Print Assumptions C99_names.
Print Assumptions C99_copies. Print Assumptions C99_faded. Print Assumptions C99_see_through. Print Assumptions C99_texts.
Print Assumptions C99_shades. Print Assumptions C99_no_shades. Print Assumptions C99_order. Print Assumptions C99_dark_backgrounds.
Print Assumptions C99_mixes. Print Assumptions C99_amounts. Print Assumptions C99_surfaces. Print Assumptions C99_final. Print Assumptions C99_styles. Print Assumptions C99_builtin.
Print Assumptions C100_plain. Print Assumptions C100_defined. Print Assumptions C100_documented. Print Assumptions C100_by_amount.
Print Assumptions C100_white. Print Assumptions C100_opacity. Print Assumptions C100_final. Print Assumptions C100_amounts. Print Assumptions C100_styles.

(** The primary colour of a theme is not always the one it was given: it went to
    lightness and back.  Whatever [powf] is: *)
Theorem C99_as_given_refuted : forall powf, let s := new_system rnd32 (rgb_of 10 0 0) true in
  get_color (from_color_system rnd32 powf (str "any") s) (str "primary") = Some (rgb_of 9 0 0) /\
  get_color (from_color_system rnd32 powf (str "any") s) (str "border") = Some (rgb_of 10 0 0).
Proof.
  intros powf s. split.
  - change (str "primary") with (str "primary" ++ str "").
    rewrite (C99_shades rnd32 powf s "primary" Primary (rgb_of 10 0 0) 0 ""); [f_equal; vm_compute; reflexivity|cbn; auto 10|exact (by_primary rnd32 s)|cbn; auto 10|].
    intros [_ [X|[X|[]]]]; discriminate.
  - exact (C99_copies rnd32 powf s "border" Primary _ ltac:(cbn; auto 10) (by_primary rnd32 s)).
Qed.
Print Assumptions C99_as_given_refuted.
(** Bringing a colour that has an opacity in the theme back to full has no
    effect: "$block-hover-background 100%" stays faint. *)
Theorem C100_full_opacity_refuted : forall powf pf c, c_theme c = Some (str "block-hover-background") -> (c_a c == 1)%Q ->
  let s := new_system rnd32 (rgb_of 1 120 212) true in
  exists v, resolve_colour rnd32 powf pf c (from_color_system rnd32 powf (str "any") s) = v /\ (c_a v < 1 # 2)%Q.
Proof.
  intros powf pf c H A s. eexists. split; [reflexivity|].
  pose proof (C99_faded rnd32 powf s "block-hover-background" Boost (1 # 10) _ ltac:(cbn; auto 10) (val_stands rnd32 s Boost)) as F.
  rewrite (proj1 (C100_defined rnd32 powf pf c _ _ _ H F)) by lra. cbn [with_alpha c_a]. vm_compute. reflexivity.
Qed.
Print Assumptions C100_full_opacity_refuted.
(** The shades of a theme are "-lighten-1" to "-lighten-3"; "-lighten-4" is not
    the next of them but full lightness, as is "-lighten-9". *)
Definition reference (n : text) : rgba := Rgba 0 0 0 1%Q None false (Some n).
Theorem C100_series_refuted : forall rnd powf pf p dark c k, rounding rnd -> (forall x y, (0 <= powf x y)%Q) -> bytes p -> ~ no_channels p ->
  c = reference (str "primary-lighten-" ++ str k) -> In k ["4"; "9"]%string -> pf (str "4") = Some 4%Q -> pf (str "9") = Some 9%Q ->
  let s := new_system rnd p dark in
  exists l a b v, to_lab rnd powf v = (l, a, b) /\ get_color (from_color_system rnd powf (str "any") s) (str "primary") = Some v /\
    resolve_colour rnd powf pf c (from_color_system rnd powf (str "any") s) = from_lab rnd powf 100 a b (c_a v).
Proof.
  intros rnd powf pf p dark c k R P B NC -> K P4 P9 s.
  assert (V : exists v, get_color (from_color_system rnd powf (str "any") s) (str "primary") = Some v /\ bytes v /\ ~ no_channels v).
  { change (str "primary") with (str "primary" ++ str "").
    rewrite (C99_shades rnd powf s "primary" Primary p 0 ""); [|cbn; auto 10|exact (by_primary rnd s)|cbn; auto 10|intros [_ [X|[X|[]]]]; discriminate].
    eexists. split; [reflexivity|]. unfold lighten, darken. assert (S : special p = false) by (destruct (special p) eqn:S; [exfalso; apply NC; apply special_iff; exact S|reflexivity]).
    rewrite S. destruct (to_lab rnd powf p) as [[l a] b]. split; [apply bytes_const; apply u8_clamp_byte|]. intros [X|[X|X]]; try discriminate; apply X; reflexivity. }
  destruct V as [v [V [BV NV]]].
  assert (N : get_color (from_color_system rnd powf (str "any") s) (str "primary-lighten-" ++ str k) = None).
  { destruct (get_color (from_color_system rnd powf (str "any") s) (str "primary-lighten-" ++ str k)) as [x|] eqn:E; [|reflexivity]. exfalso. pose proof (proj1 (C99_names rnd powf s _) (ex_intro _ x E)) as D.
    assert (Q4 : forallb (fun k => negb (existsb (text_eqb (str "primary-lighten-" ++ str k)) documented)) ["4"; "9"]%string = true) by (vm_compute; reflexivity).
    rewrite forallb_forall in Q4. specialize (Q4 k K). apply negb_true_iff in Q4. assert (T : existsb (text_eqb (str "primary-lighten-" ++ str k)) documented = true).
    { apply existsb_exists. eexists. split; [exact D|]. apply text_eqb_iff. reflexivity. } rewrite T in Q4. discriminate. }
  assert (X : exists q, pf (str k) = Some q /\ (2 <= q)%Q) by (destruct K as [<-|[<-|[]]]; [exists 4%Q|exists 9%Q]; (split; [assumption|lra])).
  destruct X as [q [Pq Q2]]. destruct (C100_amounts rnd powf v q R P BV NV Q2) as [l [a [b [E L]]]]. exists l, a, b, v. split; [exact E|]. split; [exact V|].
  rewrite <- L. destruct (C100_by_amount rnd powf pf (reference (str "primary-lighten-" ++ str k)) (from_color_system rnd powf (str "any") s) (str "primary") (str "lighten") (str k) q v) as [G _]; auto.
  - destruct K as [<-|[<-|[]]]; vm_compute; intuition discriminate.
  - vm_compute. discriminate.
Qed.
Print Assumptions C100_series_refuted.

(** *** Examples *)
Definition ex_calls : list call := [CColour FSecondary (rgb_of 0 69 120); CSpread (1 # 4); CColour FSecondary (rgb_of 1 2 3); CColour FBackground (rgb_of 20 20 30)].
Definition ex_pow (x y : Q) : Q := if Qle_bool x 0 then 0%Q else 1%Q.
Definition ex_system : system := build rnd32 (rgb_of 1 120 212) true ex_calls.
Example C99_builder_example : given FSecondary ex_system = Some (rgb_of 1 2 3) /\ s_spread ex_system = (1 # 4)%Q /\ given FPanel ex_system = None.
Proof. repeat split; reflexivity. Qed.
Example C99_sound_example : sound ex_system /\ settled ex_system /\ (0 <= s_spread ex_system)%Q /\ rounding rnd32 /\ accurate rnd32 /\
  ~ no_channels (s_primary ex_system) /\ (forall x y, (0 <= ex_pow x y)%Q).
Proof.
  split; [|split; [|split; [|split; [|split; [|split]]]]].
  - split; [intros []; cbn; lia|]. intros f c H. destruct f; try discriminate; injection H as <-; intros []; cbn; lia.
  - split; [reflexivity|]. intros f c H. destruct f; try discriminate; injection H as <-; reflexivity.
  - cbn. lra.
  - exact rounding_rnd32.
  - exact accurate_rnd32.
  - intros [X|[X|X]]; try discriminate; apply X; reflexivity.
  - intros x y. unfold ex_pow. destruct (Qle_bool x 0); lra.
Qed.
Example C99_stands_example : stands rnd32 ex_system Error (rgb_of 1 2 3) /\ stands rnd32 ex_system Background (rgb_of 20 20 30) /\ stands rnd32 ex_system Foreground (rgb_of 235 235 225) /\
  stands rnd32 ex_system Surface (rgb_of 0x1e 0x1e 0x1e).
Proof.
  split; [apply (as_secondary rnd32 ex_system Error FError); [left; reflexivity|reflexivity|reflexivity|]; apply (by_field rnd32 ex_system Secondary FSecondary); reflexivity|].
  split; [apply (by_field rnd32 ex_system Background FBackground); reflexivity|]. split; [|exact (plain_surface rnd32 ex_system eq_refl)].
  exact (against_background rnd32 ex_system (rgb_of 20 20 30) eq_refl (by_field rnd32 ex_system Background FBackground _ eq_refl eq_refl)).
Qed.
(** The darker shades of a dark red, exactly (no power is taken): *)
Example C99_shades_example : let s := with_spread (1 # 50) (new_system rnd32 (rgb_of 10 0 0) true) in
  map (fun x => option_map (fun c => (c_r c, c_g c, c_b c)) (get_color (from_color_system rnd32 ex_pow (str "t") s) (str "error" ++ str x))) ["-darken-1"; ""]%string = [Some (7, 0, 0); Some (9, 0, 0)].
Proof. vm_compute. reflexivity. Qed.
Example C99_texts_example : let t := from_color_system rnd32 ex_pow (str "t") ex_system in
  option_map c_auto (get_color t (str "link-color")) = Some true /\ option_map c_a (get_color t (str "scrollbar")) = Some 1%Q /\
  get_color t (str "footer-item-background") = Some (rgba_of 0 0 0 0) /\ get_color t (str "primary-lighten-4") = None.
Proof. vm_compute. repeat split; reflexivity. Qed.
Example C99_dark_example : let t := from_color_system rnd32 ex_pow (str "t") ex_system in
  map (fun x => option_map (fun c => (c_r c, c_g c, c_b c)) (get_color t (str "primary-background" ++ str x))) ["-darken-3"; ""; "-lighten-3"]%string =
    [Some (17, 35, 57); Some (76, 90, 106); Some (165, 172, 180)].
Proof. vm_compute. reflexivity. Qed.
Definition ex_float (t : text) : option Q := if text_eqb t (str "4") then Some 4%Q else if text_eqb t (str "9") then Some 9%Q else None.
Example C100_example : let t := from_color_system rnd32 ex_pow (str "t") ex_system in
  resolve_colour rnd32 ex_pow ex_float (reference (str "border")) t = rgb_of 1 120 212 /\
  resolve_colour rnd32 ex_pow ex_float (with_alpha (reference (str "border")) (1 # 2)) t = rgba_of 1 120 212 (1 # 2) /\
  resolve_colour rnd32 ex_pow ex_float (reference (str "bordre")) t = rgb_of 255 255 255 /\
  resolve_colour rnd32 ex_pow ex_float (reference (str "primary-lighten-4")) t = resolve_colour rnd32 ex_pow ex_float (reference (str "primary-lighten-9")) t.
Proof. vm_compute. repeat split; reflexivity. Qed.
