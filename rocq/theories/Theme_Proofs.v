(** Lemmas for Theme_Props. *)
From Coq Require Import String ZArith QArith Qround List Bool Lia Lqa.
From Verif Require Import Text_Model Float32_Model Colour_Model Colour_Spec Colour_Proofs Colour_Props Keys_Proofs Sheet_Model Theme_Model Theme_Spec.
Import ListNotations.
Notation length := List.length.
Open Scope Z_scope.
Open Scope list_scope.

(** *** Maps *)
Lemma get_in : forall V (m : vmap V) k v, NoDup (map fst m) -> In (k, v) m -> Theme_Model.get m k = Some v.
Proof.
  intros V. induction m as [|[x w] m IH]; intros k v N I; [destruct I|]. cbn in N. inversion N as [|? ? X N']; subst. cbn [Theme_Model.get].
  destruct (text_eqb x k) eqn:E.
  - apply text_eqb_iff in E. subst x. destruct I as [I|I]; [injection I as <-; reflexivity|]. exfalso. apply X. apply in_map_iff. exists (k, v). auto.
  - destruct I as [I|I]; [injection I as -> ->; pose proof (proj2 (text_eqb_iff k k) eq_refl); congruence|]. exact (IH k v N' I).
Qed.
Lemma get_some : forall V (m : vmap V) k v, Theme_Model.get m k = Some v -> In (k, v) m.
Proof.
  intros V. induction m as [|[x w] m IH]; intros k v H; [discriminate|]. cbn in H. destruct (text_eqb x k) eqn:E.
  - apply text_eqb_iff in E. injection H as ->. subst. left. reflexivity.
  - right. exact (IH k v H).
Qed.
Lemma get_none : forall V (m : vmap V) k, Theme_Model.get m k = None <-> ~ In k (map fst m).
Proof.
  intros V. induction m as [|[x w] m IH]; intros k; cbn; [tauto|]. destruct (text_eqb x k) eqn:E.
  - apply text_eqb_iff in E. split; [discriminate|]. intros H. exfalso. apply H. left. exact E.
  - rewrite IH. split; [|tauto]. intros H [X|X]; [|exact (H X)]. apply text_eqb_iff in X. congruence.
Qed.
Lemma inserts_app : forall V (l : list (string * V)) m, inserts l m = rev (map (fun kv => (str (fst kv), snd kv)) l) ++ m.
Proof.
  intros V. induction l as [|[k v] l IH]; intros m; [reflexivity|]. cbn [inserts fold_left]. change (fold_left _ l ?x) with (inserts l x). rewrite IH.
  cbn [map rev fst snd]. rewrite <- app_assoc. reflexivity.
Qed.
Lemma keys_inserts : forall V (l : list (string * V)) m, map fst (inserts l m) = rev (map str (map fst l)) ++ map fst m.
Proof. intros V l m. rewrite inserts_app, map_app, map_rev, !map_map. reflexivity. Qed.
Lemma in_inserts : forall V (l : list (string * V)) m k v, In (k, v) l -> In (str k, v) (inserts l m).
Proof.
  intros V l m k v H. rewrite inserts_app. apply in_or_app. left. rewrite <- in_rev. apply in_map_iff. exists (k, v). auto.
Qed.
Lemma in_inserts_old : forall V (l : list (string * V)) m e, In e m -> In e (inserts l m).
Proof. intros V l m e H. rewrite inserts_app. apply in_or_app. right. exact H. Qed.
Lemma forall_inserts : forall V (P : V -> Prop) (l : list (string * V)) m, Forall P (map snd l) -> Forall P (map snd m) -> Forall P (map snd (inserts l m)).
Proof.
  intros V P l m L M. rewrite inserts_app, map_app. apply Forall_app. split; [|exact M]. rewrite map_rev, map_map. apply Forall_rev. exact L.
Qed.

Section Generate.
Variables (rnd : Q -> Q) (powf : Q -> Q -> Q).
Notation generate := (generate rnd powf).
Notation shade := (shade rnd powf).
(** the shades as one list *)
Definition shade_list (s : system) : list (text * rgba) :=
  flat_map (fun nc => map (fun n => (str (fst nc) ++ suffix n, shade s (fst nc) (snd nc) n)) shade_numbers) (base_colours rnd s).
Lemma shades_rev : forall s m, shades rnd powf s m = rev (shade_list s) ++ m.
Proof.
  intros s m. unfold shades, shade_list. revert m. generalize (base_colours rnd s). induction l as [|nc l IH]; intros m; [reflexivity|]. cbn [fold_left flat_map].
  rewrite IH. rewrite rev_app_distr, <- app_assoc. f_equal.
Qed.
Definition shade_keys : list text := rev (flat_map (fun n => map (fun z => str n ++ suffix z) shade_numbers) (map fst shaded)).
Lemma keys_shades : forall s, map fst (shades rnd powf s []) = shade_keys.
Proof.
  intros s. rewrite shades_rev, app_nil_r, map_rev. unfold shade_keys. f_equal.
Qed.
Definition keys1 : list text :=
  rev (map str ["foreground-muted"; "foreground-disabled"; "text"; "text-muted"; "text-disabled"; "text-primary"; "text-secondary"; "text-warning";
    "text-error"; "text-success"; "text-accent"; "primary-muted"; "secondary-muted"; "accent-muted"; "warning-muted"; "error-muted"; "success-muted"]%string) ++ shade_keys.
Definition keys2 : list text :=
  rev (map str ["scrollbar"; "scrollbar-hover"; "scrollbar-active"; "scrollbar-background"; "scrollbar-corner-color"; "scrollbar-background-hover";
    "scrollbar-background-active"]%string) ++ keys1.
Definition keys3 : list text :=
  rev (map str ["link-color"; "link-background"; "link-color-hover"; "link-background-hover"; "border"; "border-blurred"; "surface-active";
    "block-cursor-foreground"; "block-cursor-background"; "block-cursor-blurred-foreground"; "block-cursor-blurred-background"; "block-hover-background";
    "footer-foreground"; "footer-background"; "footer-key-foreground"; "footer-key-background"; "footer-description-foreground";
    "footer-description-background"; "footer-item-background"; "input-cursor-background"; "input-cursor-foreground"; "input-selection-background";
    "markdown-h1-color"; "markdown-h1-background"; "markdown-h2-color"; "markdown-h2-background"; "markdown-h3-color"; "markdown-h3-background";
    "markdown-h4-color"; "markdown-h4-background"; "markdown-h5-color"; "markdown-h5-background"; "markdown-h6-color"; "markdown-h6-background";
    "button-foreground"; "button-color-foreground"]%string) ++ keys2.
Fixpoint distinct (l : list text) : bool := match l with [] => true | x :: r => negb (existsb (text_eqb x) r) && distinct r end.
Lemma distinct_nodup : forall l, distinct l = true -> NoDup l.
Proof.
  induction l as [|x l IH]; intros H; [constructor|]. cbn in H. apply andb_true_iff in H. destruct H as [A B]. constructor; [|exact (IH B)].
  intros I. apply negb_true_iff in A. assert (X : existsb (text_eqb x) l = true) by (apply existsb_exists; exists x; split; [exact I|apply text_eqb_iff; reflexivity]). congruence.
Qed.
Lemma keys3_nodup : NoDup keys3. Proof. apply distinct_nodup. vm_compute. reflexivity. Qed.
Lemma nodup_tail : forall (a b : list text), NoDup (a ++ b) -> NoDup b.
Proof. induction a as [|x a IH]; intros b H; [exact H|]. inversion H; subst. auto. Qed.
Lemma keys2_nodup : NoDup keys2. Proof. exact (nodup_tail _ _ keys3_nodup). Qed.
Lemma keys1_nodup : NoDup keys1. Proof. exact (nodup_tail _ _ keys2_nodup). Qed.

(** the three stages of [generate] *)
Definition stage1 (s : system) : vmap rgba :=
  inserts
    [("foreground-muted", with_alpha (foreground s) (rnd (6 # 10))); ("foreground-disabled", with_alpha (foreground s) (rnd (38 # 100)));
     ("text", text_colour rnd s (87 # 100)); ("text-muted", text_colour rnd s (60 # 100)); ("text-disabled", text_colour rnd s (38 # 100));
     ("text-primary", text_of rnd s (s_primary s)); ("text-secondary", text_of rnd s (secondary s)); ("text-warning", text_of rnd s (warning s));
     ("text-error", text_of rnd s (error s)); ("text-success", text_of rnd s (success s)); ("text-accent", text_of rnd s (accent s));
     ("primary-muted", muted rnd s (s_primary s)); ("secondary-muted", muted rnd s (secondary s)); ("accent-muted", muted rnd s (accent s));
     ("warning-muted", muted rnd s (warning s)); ("error-muted", muted rnd s (error s)); ("success-muted", muted rnd s (success s))]%string (shades rnd powf s []).
Definition stage2 (s : system) (track : rgba) : vmap rgba :=
  inserts
    [("scrollbar", scrollbar_of rnd s track (4 # 10)); ("scrollbar-hover", scrollbar_of rnd s track (5 # 10)); ("scrollbar-active", s_primary s);
     ("scrollbar-background", track); ("scrollbar-corner-color", track); ("scrollbar-background-hover", track);
     ("scrollbar-background-active", track)]%string (stage1 s).
Definition stage3 (s : system) (track text muted_foreground : rgba) : vmap rgba :=
  inserts
    [("link-color", text); ("link-background", transparent); ("link-color-hover", text); ("link-background-hover", s_primary s);
     ("border", s_primary s); ("border-blurred", darken rnd powf (surface s) (rnd (25 # 1000)));
     ("surface-active", lighten rnd powf (surface s) (rnd (s_spread s / (5 # 2))%Q));
     ("block-cursor-foreground", text); ("block-cursor-background", s_primary s); ("block-cursor-blurred-foreground", foreground s);
     ("block-cursor-blurred-background", with_alpha (s_primary s) (rnd (3 # 10))); ("block-hover-background", with_alpha (boost rnd s) (rnd (1 # 10)));
     ("footer-foreground", foreground s); ("footer-background", panel rnd s); ("footer-key-foreground", accent s);
     ("footer-key-background", transparent); ("footer-description-foreground", foreground s);
     ("footer-description-background", transparent); ("footer-item-background", transparent);
     ("input-cursor-background", foreground s); ("input-cursor-foreground", background s);
     ("input-selection-background", with_alpha (s_primary s) (rnd (4 # 10)));
     ("markdown-h1-color", s_primary s); ("markdown-h1-background", transparent); ("markdown-h2-color", s_primary s);
     ("markdown-h2-background", transparent); ("markdown-h3-color", s_primary s); ("markdown-h3-background", transparent);
     ("markdown-h4-color", foreground s); ("markdown-h4-background", transparent); ("markdown-h5-color", foreground s);
     ("markdown-h5-background", transparent); ("markdown-h6-color", muted_foreground); ("markdown-h6-background", transparent);
     ("button-foreground", foreground s); ("button-color-foreground", text)]%string (stage2 s track).
Lemma keys_stage1 : forall s, map fst (stage1 s) = keys1.
Proof. intros s. unfold stage1. rewrite keys_inserts, keys_shades. reflexivity. Qed.
Lemma keys_stage2 : forall s t, map fst (stage2 s t) = keys2.
Proof. intros s t. unfold stage2. rewrite keys_inserts, keys_stage1. reflexivity. Qed.
Lemma keys_stage3 : forall s t x f, map fst (stage3 s t x f) = keys3.
Proof. intros s t x f. unfold stage3. rewrite keys_inserts, keys_stage2. reflexivity. Qed.
Lemma shade_in : forall s n c z, In (n, c) (base_colours rnd s) -> In z shade_numbers -> In (str n ++ suffix z, shade s n c z) (shades rnd powf s []).
Proof.
  intros s n c z I Z. rewrite shades_rev, app_nil_r, <- in_rev. unfold shade_list. apply in_flat_map. exists (n, c). split; [exact I|].
  apply in_map_iff. exists z. auto.
Qed.
(** the colour of scrollbar tracks *)
Definition track (s : system) : rgba := lighten rnd powf (background s) (rnd (inject_Z (-1) * step rnd s)%Q).
Lemma generate_stages : forall s,
  generate s = stage3 s (track s) (text_colour rnd s (87 # 100)) (with_alpha (foreground s) (rnd (6 # 10))).
Proof.
  intros s. unfold Theme_Model.generate. change (inserts _ (shades rnd powf s [])) with (stage1 s). cbv zeta.
  assert (T : get_or (stage1 s) "background-darken-1" (darken rnd powf (background s) (step rnd s)) = track s).
  { unfold get_or. rewrite (get_in _ (stage1 s) _ (track s)); [reflexivity|rewrite keys_stage1; exact keys1_nodup|].
    unfold stage1. apply in_inserts_old. pose proof (shade_in s "background" (background s) (-1)) as S.
    unfold Theme_Model.shade, is_dark_shade in S. cbn [String.eqb Ascii.eqb Bool.eqb orb] in S. rewrite andb_false_r in S. apply S; cbn; auto 10. }
  rewrite T. change (inserts _ (stage1 s)) with (stage2 s (track s)).
  assert (X : get_or (stage2 s (track s)) "text" (foreground s) = text_colour rnd s (87 # 100)).
  { unfold get_or. rewrite (get_in _ (stage2 s (track s)) _ (text_colour rnd s (87 # 100))); [reflexivity|rewrite keys_stage2; exact keys2_nodup|].
    unfold stage2, stage1. apply in_inserts_old. apply in_inserts. do 2 right. left. reflexivity. }
  assert (M : get_or (stage2 s (track s)) "foreground-muted" (foreground s) = with_alpha (foreground s) (rnd (6 # 10))).
  { unfold get_or. rewrite (get_in _ (stage2 s (track s)) _ (with_alpha (foreground s) (rnd (6 # 10)))); [reflexivity|rewrite keys_stage2; exact keys2_nodup|].
    unfold stage2, stage1. apply in_inserts_old. apply in_inserts. left. reflexivity. }
  rewrite X, M. reflexivity.
Qed.
Lemma generate_nodup : forall s, NoDup (map fst (generate s)).
Proof. intros s. rewrite generate_stages, keys_stage3. exact keys3_nodup. Qed.
Lemma generate_keys : forall s, map fst (generate s) = keys3.
Proof. intros s. rewrite generate_stages. apply keys_stage3. Qed.

(** *** Base colours *)
Definition val (s : system) (b : base) : rgba :=
  match b with
  | Primary => s_primary s | Secondary => secondary s | Warning => warning s | Error => error s | Success => success s | Accent => accent s
  | Foreground => foreground s | Background => background s | Surface => surface s | Panel => panel rnd s | Boost => boost rnd s
  end.
Lemma contrast_alpha : forall c a b, with_alpha (contrast_text rnd c a) b = contrast_text rnd c b.
Proof. intros c a b. unfold contrast_text. destruct (Qle_bool _ _); reflexivity. Qed.
Lemma stands_val : forall s b c, stands rnd s b c -> c = val s b.
Proof.
  intros s b c H. induction H as [|b f c F G|b f I F G|b f c I F G H IH|G|G|c G H IH|c G H IH|c G D H IH|c d G D H IH K IHK].
  - reflexivity.
  - destruct b; cbn in F; try discriminate; injection F as <-; cbn in G |- *;
      unfold secondary, warning, error, success, accent, foreground, background, surface, panel, boost; rewrite G; reflexivity.
  - destruct I as [<- |[<- |[<- |[]]]]; cbn in F; injection F as <-; cbn in G |- *; unfold secondary, warning, accent; rewrite G; reflexivity.
  - cbn in IH. destruct I as [<- |[<- |[]]]; cbn in F; injection F as <-; cbn in G |- *; unfold error, success; rewrite G; exact IH.
  - cbn in G |- *. unfold background. rewrite G. reflexivity.
  - cbn in G |- *. unfold surface. rewrite G. reflexivity.
  - cbn in G, IH |- *. unfold foreground. rewrite G, IH. reflexivity.
  - cbn in G, IH |- *. unfold boost. rewrite G, IH. symmetry. apply contrast_alpha.
  - cbn in G, IH |- *. unfold panel. rewrite G, IH, D. reflexivity.
  - cbn in G, IH, IHK |- *. unfold panel. rewrite G, IH, IHK, D. reflexivity.
Qed.
Lemma val_stands : forall s b, stands rnd s b (val s b).
Proof.
  intros s.
  assert (SE : stands rnd s Secondary (secondary s)).
  { unfold secondary. destruct (s_secondary s) as [c|] eqn:E; cbn [or_else]; [apply (by_field rnd s Secondary FSecondary); [reflexivity|exact E]|].
    apply (as_primary rnd s Secondary FSecondary); [left; reflexivity|reflexivity|exact E]. }
  assert (BG : stands rnd s Background (background s)).
  { unfold background. destruct (s_background s) as [c|] eqn:E; cbn [or_else]; [apply (by_field rnd s Background FBackground); [reflexivity|exact E]|].
    apply plain_background. exact E. }
  assert (SF : stands rnd s Surface (surface s)).
  { unfold surface. destruct (s_surface s) as [c|] eqn:E; cbn [or_else]; [apply (by_field rnd s Surface FSurface); [reflexivity|exact E]|].
    apply plain_surface. exact E. }
  assert (BO : stands rnd s Boost (boost rnd s)).
  { unfold boost. destruct (s_boost s) as [c|] eqn:E; cbn [or_else]; [apply (by_field rnd s Boost FBoost); [reflexivity|exact E]|].
    unfold contrast. rewrite contrast_alpha. apply faint_contrast; [exact E|exact BG]. }
  intros []; cbn [val].
  - apply by_primary.
  - exact SE.
  - unfold warning. destruct (s_warning s) as [c|] eqn:E; cbn [or_else]; [apply (by_field rnd s Warning FWarning); [reflexivity|exact E]|].
    apply (as_primary rnd s Warning FWarning); [right; left; reflexivity|reflexivity|exact E].
  - unfold error. destruct (s_error s) as [c|] eqn:E; cbn [or_else]; [apply (by_field rnd s Error FError); [reflexivity|exact E]|].
    apply (as_secondary rnd s Error FError); [left; reflexivity|reflexivity|exact E|exact SE].
  - unfold success. destruct (s_success s) as [c|] eqn:E; cbn [or_else]; [apply (by_field rnd s Success FSuccess); [reflexivity|exact E]|].
    apply (as_secondary rnd s Success FSuccess); [right; left; reflexivity|reflexivity|exact E|exact SE].
  - unfold accent. destruct (s_accent s) as [c|] eqn:E; cbn [or_else]; [apply (by_field rnd s Accent FAccent); [reflexivity|exact E]|].
    apply (as_primary rnd s Accent FAccent); [right; right; left; reflexivity|reflexivity|exact E].
  - unfold foreground. destruct (s_foreground s) as [c|] eqn:E; cbn [or_else]; [apply (by_field rnd s Foreground FForeground); [reflexivity|exact E]|].
    apply against_background; [exact E|exact BG].
  - exact BG.
  - exact SF.
  - unfold panel. destruct (s_panel s) as [c|] eqn:E; cbn [or_else]; [apply (by_field rnd s Panel FPanel); [reflexivity|exact E]|].
    destruct (s_dark s) eqn:D; [apply dark_panel; assumption|apply light_panel; assumption].
  - exact BO.
Qed.
Lemma bases : forall s n b, In (n, b) shaded -> In (n, val s b) (base_colours rnd s).
Proof.
  intros s n b H. replace (base_colours rnd s) with (map (fun nb => (fst nb, val s (snd nb))) shaded) by reflexivity.
  apply in_map_iff. exists (n, b). auto.
Qed.

(** *** Sound systems have sound colours *)
Lemma bytes_same : forall c a, bytes c -> bytes (with_alpha c a). Proof. intros c a B k. exact (B k). Qed.
Lemma bytes_const : forall r g b a, 0 <= r <= 255 -> 0 <= g <= 255 -> 0 <= b <= 255 -> bytes (rgba_of r g b a).
Proof. intros r g b a R G B []; assumption. Qed.
Lemma bytes_mix : forall c d f a, bytes c -> bytes d -> bytes (Colour_Model.blend rnd c d f a).
Proof.
  intros c d f a C D. unfold Colour_Model.blend. destruct (Qle_bool f 0); [exact C|]. destruct (Qle_bool 1 f); [exact D|].
  apply bytes_const; apply u8_clamp_byte.
Qed.
Lemma bytes_tint : forall c d, bytes (Colour_Model.tint rnd c d). Proof. intros c d. apply bytes_const; apply u8_clamp_byte. Qed.
Lemma bytes_contrast : forall c a, bytes (contrast_text rnd c a).
Proof. intros c a. unfold contrast_text. destruct (Qle_bool _ _); apply bytes_const; lia. Qed.
Lemma bytes_val : forall s b, sound s -> bytes (val s b).
Proof.
  intros s b [P F]. pose proof (val_stands s b) as H. generalize dependent (val s b). intros c H.
  induction H as [|b f c E G|b f I E G|b f c I E G H IH|G|G|c G H IH|c G H IH|c G D H IH|c d G D H IH K IHK]; auto.
  - exact (F f c G).
  - destruct (s_dark s); apply bytes_const; lia.
  - destruct (s_dark s); apply bytes_const; lia.
  - intros k. pose proof (IH k). destruct k; cbn [Colour_Spec.get inverse rgba_of c_r c_g c_b] in *; lia.
  - apply bytes_contrast.
  - apply bytes_mix; assumption.
  - apply bytes_tint.
Qed.
Lemma theme_mix : forall c d f a, c_theme c = None -> c_theme d = None -> c_theme (Colour_Model.blend rnd c d f a) = None.
Proof. intros c d f a C D. unfold Colour_Model.blend. destruct (Qle_bool f 0); [exact C|]. destruct (Qle_bool 1 f); [exact D|]. reflexivity. Qed.
Lemma theme_val : forall s b, settled s -> c_theme (val s b) = None.
Proof.
  intros s b [P F]. pose proof (val_stands s b) as H. generalize dependent (val s b). intros c H.
  induction H as [|b f c E G|b f I E G|b f c I E G H IH|G|G|c G H IH|c G H IH|c G D H IH|c d G D H IH K IHK]; auto.
  - exact (F f c G).
  - destruct (s_dark s); reflexivity.
  - destruct (s_dark s); reflexivity.
  - unfold contrast_text. destruct (Qle_bool _ _); reflexivity.
  - apply theme_mix; assumption.
Qed.
Lemma special_iff : forall c, special c = true <-> no_channels c.
Proof.
  intros c. unfold special, no_channels. rewrite !orb_true_iff. destruct (c_ansi c), (c_theme c), (c_auto c); cbn; intuition congruence.
Qed.
Lemma theme_darken : forall c a, c_theme c = None -> c_theme (darken rnd powf c a) = None.
Proof. intros c a H. unfold darken. destruct (special c); [exact H|]. destruct (to_lab rnd powf c) as [[l x] y]. reflexivity. Qed.
Lemma theme_lighten : forall c a, c_theme c = None -> c_theme (lighten rnd powf c a) = None.
Proof. intros c a H. unfold lighten. destruct (special c); [exact H|]. apply theme_darken. exact H. Qed.
Lemma theme_shade : forall s n c z, settled s -> c_theme c = None -> c_theme (shade s n c z) = None.
Proof.
  intros s n c z S H. unfold Theme_Model.shade. destruct (is_dark_shade s n); [|apply theme_lighten; exact H].
  apply theme_mix; [apply theme_mix; [exact (theme_val s Background S)|exact H]|reflexivity].
Qed.
Lemma theme_generate : forall s, settled s -> Forall (fun c => c_theme c = None) (map snd (generate s)).
Proof.
  intros s S. pose proof (theme_val s Primary S) as HP. pose proof (theme_val s Secondary S) as HS. pose proof (theme_val s Warning S) as HW.
  pose proof (theme_val s Error S) as HE. pose proof (theme_val s Success S) as HU. pose proof (theme_val s Accent S) as HA.
  pose proof (theme_val s Foreground S) as HF. pose proof (theme_val s Background S) as HB. pose proof (theme_val s Surface S) as HR.
  pose proof (theme_val s Panel S) as HN. pose proof (theme_val s Boost S) as HO. cbn [val] in *.
  assert (TX : forall a, c_theme (text_colour rnd s a) = None) by (intro a; unfold text_colour; destruct (is_some _); [exact HF|reflexivity]).
  assert (TK : c_theme (track s) = None) by (apply theme_lighten; exact HB).
  rewrite generate_stages. unfold stage3, stage2, stage1.
  apply forall_inserts; [|apply forall_inserts; [|apply forall_inserts]].
  - cbn [map snd]. repeat (apply Forall_cons; [first [apply TX|exact HP|exact HF|exact HA|exact HB|exact HN|exact HO|exact TK|apply theme_darken; exact HR|apply theme_lighten; exact HR|reflexivity]|]). apply Forall_nil.
  - cbn [map snd]. repeat (apply Forall_cons; [first [exact TK|exact HP|apply theme_mix; [exact TK|exact HP]]|]). apply Forall_nil.
  - cbn [map snd]. repeat (apply Forall_cons; [first [apply TX|exact HF|reflexivity|apply theme_mix; [first [exact HP|exact HS|exact HA|exact HW|exact HE|exact HU]|exact HB]]|]). apply Forall_nil.
  - rewrite shades_rev, app_nil_r, map_rev. apply Forall_rev. apply Forall_map. apply Forall_forall. intros [k c] I. unfold shade_list in I.
    apply in_flat_map in I. destruct I as [[n d] [I J]]. apply in_map_iff in J. destruct J as [z [J Z]]. injection J as _ <-. cbn [fst snd].
    apply theme_shade; [exact S|]. assert (X : exists b, In (n, b) shaded /\ d = val s b).
    { replace (base_colours rnd s) with (map (fun nb => (fst nb, val s (snd nb))) shaded) in I by reflexivity. apply in_map_iff in I.
      destruct I as [[n' b] [E I]]. injection E as <- <-. exists b. auto. }
    destruct X as [b [_ ->]]. exact (theme_val s b S).
Qed.
End Generate.
