(** Lemmas on the colours widgets are shown in. *)
From Coq Require Import ZArith QArith Qabs List Bool Lia Lqa.
From Verif Require Import Float32_Model Float32_Proofs Bars_Proofs Colour_Model Colour_Spec Colour_Proofs Colour_Props Snapshot_Model Shown_Model Shown_Spec.
Import ListNotations.
Open Scope Z_scope.

Lemma solid_not_translucent : forall c, solid c -> translucent c = false.
Proof. intros c S. unfold translucent. apply Qle_bool_iff in S. now rewrite S. Qed.
Lemma solid_not_transparent : forall c, solid c -> is_transparent c = false.
Proof. intros c S. unfold is_transparent, solid in *. destruct (Qle_bool (c_a c) 0) eqn:E; auto. apply Qle_bool_iff in E. lra. Qed.
Lemma not_solid : forall c, translucent c = true -> ~ solid c.
Proof. intros c T S. rewrite (solid_not_translucent c S) in T. discriminate. Qed.
Lemma translucent_or : forall c, translucent c = true /\ (c_a c < 1)%Q \/ translucent c = false /\ solid c.
Proof. intros c. unfold translucent, solid. destruct (Qle_bool 1 (c_a c)) eqn:E; [right|left]; split; auto; [now apply Qle_bool_iff|now apply Qle_bool_false]. Qed.
Lemma chan_to_rgb : forall k c, chan k (to_rgb c) = get k c. Proof. intros [] c; reflexivity. Qed.
Lemma rgb_ext : forall a b, (forall k, chan k a = chan k b) -> a = b.
Proof. intros [r g b] [r' g' b'] H. pose proof (H Red). pose proof (H Green). pose proof (H Blue). cbn in *. congruence. Qed.
Lemma get_rgb : forall k e, get k (rgb_of (r_r e) (r_g e) (r_b e)) = chan k e. Proof. intros [] e; reflexivity. Qed.
Lemma bytes_rgb : forall c, bytes c -> bytes (rgb_of (c_r c) (c_g c) (c_b c)). Proof. intros c B []; [exact (B Red)|exact (B Green)|exact (B Blue)]. Qed.
Lemma shine_to_rgb : forall c, shine (to_rgb c) = luma c. Proof. intros c. reflexivity. Qed.

Lemma told_after_snoc : forall rnd l k t, told_after rnd (l ++ [k]) t = tell rnd k (told_after rnd l t).
Proof. induction l as [|a l IH]; intros k t; [reflexivity|]. cbn [app told_after]. apply IH. Qed.
Lemma painted_snoc : forall rnd rnd64 l k t cell,
  painted rnd rnd64 (l ++ [k]) t cell = cell_background rnd (own_background rnd rnd64 k (told_after rnd l t)) (painted rnd rnd64 l t cell).
Proof. induction l as [|a l IH]; intros k t cell; [reflexivity|]. cbn [app painted told_after]. apply IH. Qed.

Lemma grounded_snoc : forall l k, grounded (l ++ [k]) -> grounded l /\ (forall c, k_bg k = Some c -> solid c \/ Exists ground l).
Proof.
  intros l k G. split.
  - intros above x below c E B. apply (G above x (below ++ [k]) c); auto. rewrite E, <- app_assoc. reflexivity.
  - intros c B. exact (G l k [] c eq_refl B).
Qed.
Lemma clean_snoc : forall l k, clean (l ++ [k]) -> clean l /\ plain k /\ (forall c, k_bg k = Some c -> solid c \/ Exists ground l).
Proof.
  intros l k [F G]. apply Forall_app in F. destruct F as [F P]. inversion P; subst. apply grounded_snoc in G. destruct G. split; [split|]; auto.
Qed.

Section Shown.
Variables rnd rnd64 : Q -> Q.
Hypothesis R : rounding rnd.
Hypothesis R64 : rounding rnd64.

Lemma tint_alpha : forall c o, c_a (tint rnd c o) = c_a c. Proof. reflexivity. Qed.
Lemma tint_bytes : forall c o, bytes (tint rnd c o). Proof. intros c o []; apply u8_clamp_byte. Qed.
Lemma tinted_alpha : forall c o, c_a (tinted rnd c o) = c_a c. Proof. intros c [o|]; reflexivity. Qed.
Lemma tinted_bytes : forall c o, bytes c -> bytes (tinted rnd c o). Proof. intros c [o|] B; [apply tint_bytes|exact B]. Qed.
Lemma tint_channels : forall a b o, to_rgb a = to_rgb b -> to_rgb (tint rnd a o) = to_rgb (tint rnd b o).
Proof. intros a b o E. unfold to_rgb in *. injection E as E1 E2 E3. unfold tint. cbn [c_r c_g c_b rgba_of]. now rewrite E1, E2, E3. Qed.

(** What is told is what is painted. *)
Definition agree (bg : option rgba) (cell : option rgb) : Prop :=
  match bg, cell with Some c, Some e => solid c /\ bytes c /\ to_rgb c = e | None, None => True | _, _ => False end.

Lemma own_full : forall k t, (1 <= k_opacity k)%Q ->
  own_background rnd rnd64 k t = match k_bg k with Some bg => if is_transparent bg then None else Some (tinted rnd bg (k_tint k)) | None => t_bg t end.
Proof.
  intros k t O. unfold own_background. apply Qle_bool_iff in O. rewrite O. cbn [negb]. destruct (k_bg k) as [bg|]; [destruct (is_transparent bg); auto|]; destruct (t_bg t); auto.
Qed.
Lemma inherit_bg : forall k t, k_bg (inherit k t) = k_bg k /\ k_tint (inherit k t) = k_tint k /\ k_opacity (inherit k t) = k_opacity k.
Proof. intros k t. unfold inherit. destruct (k_color k); auto. destruct (t_color t); auto. Qed.
Lemma tell_bg : forall k t, t_bg (tell rnd k t) = bg_for_children rnd k t.
Proof. intros k t. unfold tell. cbn [t_bg]. unfold bg_for_children. destruct (inherit_bg k t) as (A & B & _). now rewrite A, B. Qed.

Lemma agree_step : forall k t cell, plain k -> agree (t_bg t) cell -> (forall c, k_bg k = Some c -> solid c \/ t_bg t <> None) ->
  agree (t_bg (tell rnd k t)) (cell_background rnd (own_background rnd rnd64 k t) cell) /\ ((exists c, k_bg k = Some c) \/ t_bg t <> None -> t_bg (tell rnd k t) <> None).
Proof.
  intros k t cell ((PC & PB & PT) & O & TS) A G. rewrite own_full by auto. rewrite tell_bg. unfold bg_for_children.
  destruct (k_bg k) as [bg|] eqn:K.
  - specialize (G bg eq_refl). destruct (PB bg eq_refl) as [BB BA]. split; [|intros _; destruct (t_bg t); [destruct (translucent bg)|]; discriminate].
    destruct (translucent_or bg) as [[T L]|[T S]].
    + destruct G as [G|G]; [destruct (not_solid bg T G)|]. destruct (t_bg t) as [p|]; [|congruence]. rewrite T.
      destruct cell as [e|]; [|destruct A]. destruct A as (SP & BP & <-).
      assert (NT : k_tint k = None). { destruct (k_tint k) as [o|] eqn:KT; auto. destruct (not_solid bg T (TS bg o eq_refl eq_refl)). }
      rewrite NT. cbn [tinted]. assert (BO : blend_over rnd bg p = tint rnd p bg). { unfold blend_over. destruct (Qle_bool 1 (c_a bg)) eqn:Q; auto. apply Qle_bool_iff in Q. lra. }
      rewrite BO. destruct (is_transparent bg) eqn:Z.
      * cbn [cell_background agree]. split; [exact SP|]. split; [apply tint_bytes|]. apply rgb_ext. intros c. rewrite !chan_to_rgb.
        unfold is_transparent in Z. apply Qle_bool_iff in Z. destruct (C52_ends rnd p bg None R BP BB) as (_ & _ & _ & _ & H & _). apply H. lra.
      * cbn [cell_background]. rewrite Z, T. cbn [agree]. split; [exact SP|]. split; [apply tint_bytes|]. unfold blend_over in *. destruct (Qle_bool 1 (c_a bg)) eqn:Q; [apply Qle_bool_iff in Q; lra|].
        now apply tint_channels.
    + assert (E : agree (Some (tinted rnd bg (k_tint k))) (cell_background rnd (Some (tinted rnd bg (k_tint k))) cell)).
      { assert (S' : solid (tinted rnd bg (k_tint k))) by (unfold solid; rewrite tinted_alpha; exact S). cbn [cell_background]. rewrite solid_not_transparent, solid_not_translucent by auto. cbn [agree]. split; auto. split; auto. now apply tinted_bytes. }
      rewrite solid_not_transparent by auto. destruct (t_bg t); [rewrite T|]; exact E.
  - split; [|intros [[c C]|N]; [discriminate|auto]]. destruct (t_bg t) as [p|]; [|exact A]. destruct cell as [e|]; [|destruct A]. destruct A as (S & B & <-).
    cbn [cell_background]. rewrite solid_not_transparent, solid_not_translucent by auto. cbn [agree]. auto.
Qed.

Lemma agree_path : forall l foreground, clean l ->
  agree (t_bg (told_after rnd l (at_root foreground))) (painted rnd rnd64 l (at_root foreground) None) /\
  (Exists ground l -> t_bg (told_after rnd l (at_root foreground)) <> None).
Proof.
  intros l foreground. induction l as [|k l IH] using rev_ind; intros C. { split; [exact I|]. intros E. inversion E. }
  apply clean_snoc in C. destruct C as (C & P & G). specialize (IH C). destruct IH as [A N]. rewrite told_after_snoc, painted_snoc.
  destruct (agree_step k _ _ P A) as [A' N']. { intros c B. destruct (G c B); auto. } split; auto. intros E. apply N'. apply Exists_app in E. destruct E as [E|E]; [right; auto|].
  left. inversion E as [? ? [c [B _]]|? ? E']; subst; [exists c; auto|inversion E'].
Qed.

(** *** Text *)
Lemma faded_full : forall c t o, (1 <= o)%Q -> faded rnd c t o = c.
Proof. intros c t o O. unfold faded, blend_toward, with_opacity. apply Qle_bool_iff in O. rewrite O. now destruct (t_bg t). Qed.
Lemma faded_none : forall c t bg o, (o <= 0)%Q -> t_bg t = Some bg -> faded rnd c t o = bg.
Proof.
  intros c t bg o O B. unfold faded, blend_toward. rewrite B. destruct (Qle_bool 1 o) eqn:E; [apply Qle_bool_iff in E; lra|]. apply Qle_bool_iff in O. now rewrite O.
Qed.
Lemma cell_text_solid : forall c, solid c -> cell_text_colour rnd c = to_rgb c.
Proof. intros c S. unfold cell_text_colour. apply Qle_bool_iff in S. now rewrite S. Qed.
Lemma cell_bg_solid : forall c cell, solid c -> cell_background rnd (Some c) cell = Some (to_rgb c).
Proof. intros c cell S. cbn [cell_background]. now rewrite solid_not_transparent, solid_not_translucent. Qed.
Lemma contrasting_solid : forall c r, solid (contrasting rnd c r).
Proof. intros c r. unfold contrasting, solid. cbv zeta. destruct (Qle_bool 1 r); cbn; lra. Qed.

(** Squaring. *)
Lemma square_zero : forall o, (o == 0)%Q -> (rnd64 (o * o) <= 0)%Q.
Proof.
  intros o O. assert (E : (o * o <= inject_Z 0)%Q) by (rewrite O; vm_compute; discriminate). pose proof (rnd_mono rnd64 R64 _ _ E) as M. rewrite (rnd_int rnd64 R64 0) in M by lia. exact M.
Qed.
Lemma toward_between : forall c d f k, bytes c -> bytes d -> between (get k c) (get k d) (get k (blend_toward rnd c d f)).
Proof. intros. now apply C52_toward_between. Qed.

End Shown.

(** *** Inheritance of the text colour *)
Lemma declared_snoc : forall l k d, declared (l ++ [k]) d = declared l (match k_color k with Some c => Some (c, k_auto k) | None => d end).
Proof. induction l as [|a l IH]; intros k d; [reflexivity|]. cbn [app declared]. destruct (k_color a); auto. Qed.
Definition colour_told (t : told) : option (rgba * bool) := match t_color t with Some c => Some (c, t_auto t) | None => None end.
Lemma inherit_colour : forall k t, match k_color (inherit k t) with Some c => Some (c, k_auto (inherit k t)) | None => None end = match k_color k with Some c => Some (c, k_auto k) | None => colour_told t end.
Proof. intros k t. unfold inherit, colour_told. destruct (k_color k) as [c|] eqn:E; [rewrite E; auto|]. destruct (t_color t) as [c|] eqn:F; cbn [k_color k_auto]; [auto|now rewrite E]. Qed.
Lemma told_colour : forall rnd l t, colour_told (told_after rnd l t) = declared (rev l) (colour_told t).
Proof.
  intros rnd l. induction l as [|k l IH]; intros t; [reflexivity|]. cbn [told_after rev]. rewrite IH, declared_snoc. f_equal. unfold tell. unfold colour_told at 1. cbn [t_color t_auto]. apply inherit_colour.
Qed.
