(** C122: links look as the stylesheet says. *)
From Coq Require Import String ZArith QArith Qabs List Bool Arith Lia Lqa.
From Verif Require Import Text_Model Float32_Model Keys_Proofs Colour_Model Colour_Spec Colour_Proofs Link_Model Link_Spec Link_Proofs.
From Verif Require Strip_Model Strip_Spec Wrap_Model Wrap_Spec Wrap2_Proofs Colour_Props.
Import ListNotations.
Open Scope list_scope.

(** *** In the lines of a text *)
(** A text with link styles has the characters and metadata it has without.  Only the
    characters of links with an action look different: those of the hovered action as
    hovered links, the others as links; web links and plain text stay as they are. *)
Theorem C122_lines : forall rnd gr gw ls hov c,
  (forall t, concat (gr t) = t) -> (forall t g, In g (gr t) -> g <> []) -> Wrap_Spec.aligned (Wrap_Spec.spans_of c) 0 (Wrap_Model.c_text c) ->
  exists with_links without,
    lines rnd gr gw ls hov c = Some with_links /\ lines rnd gr gw None None c = Some without /\
    Forall2 (fun a b => Forall2 (fun g g0 =>
        glyph_char g = glyph_char g0 /\ glyph_meta g = glyph_meta g0 /\
        match ls, action (glyph_meta g0) with
        | Some l, Some a =>
            (hov = Some a -> glyph_style g = apply_link rnd (glyph_style g0) l true) /\
            (hov <> Some a -> glyph_style g = apply_link rnd (glyph_style g0) l false)
        | _, _ => glyph_style g = glyph_style g0
        end) (Wrap_Spec.view plain a) (Wrap_Spec.view plain b)) with_links without.
Proof.
  intros rnd gr gw ls hov c Hgr Hne AL. destruct (lines_linked rnd gr gw ls hov c Hgr Hne AL) as (s & s0 & A & B & F).
  exists s, s0. split; [exact A|]. split; [exact B|].
  clear A B. induction F as [|x y l l' G _ IH]; [constructor|constructor; [|exact IH]]. clear IH.
  induction G as [|g g0 r r' (C1 & C2 & C3) _ IH]; [constructor|constructor; [|exact IH]].
  split; [exact C1|]. split; [exact C2|]. unfold restyle in C3. unfold action.
  destruct (lookup (str "@click") (glyph_meta g0)) as [a|], ls as [l0|]; try exact C3.
  split; intros H; rewrite C3; destruct hov as [h|].
  - injection H as <-. replace (text_eqb h h) with true; [reflexivity|]. symmetry. apply text_eqb_iff. reflexivity.
  - discriminate H.
  - destruct (text_eqb h a) eqn:E; [|reflexivity]. apply text_eqb_iff in E. congruence.
  - reflexivity.
Qed.
Print Assumptions C122_lines.

(** The action of a character is that of the last span over it that has one: of nested
    links the inner one counts. *)
Theorem C122_inner : forall (before after : list (@Wrap_Model.span style meta)) s pos a,
  (Wrap_Model.sp_start s <= pos < Wrap_Model.sp_end s)%nat -> action (Wrap_Model.sp_meta s) = Some a ->
  Forall (fun o => (Wrap_Model.sp_start o <= pos < Wrap_Model.sp_end o)%nat -> action (Wrap_Model.sp_meta o) = None) after ->
  action (Wrap_Spec.gather extend [] (before ++ s :: after) pos) = Some a.
Proof.
  intros before after s pos a [C1 C2] A F. rewrite gather_app. cbn [Wrap_Spec.gather].
  rewrite gather_none by exact F. apply Nat.leb_le in C1. apply Nat.ltb_lt in C2. rewrite C1, C2. cbn [andb].
  rewrite action_extend, A. reflexivity.
Qed.
Print Assumptions C122_inner.
(** Without such a span it has none. *)
Theorem C122_no_action : forall (spans : list (@Wrap_Model.span style meta)) pos,
  Forall (fun o => (Wrap_Model.sp_start o <= pos < Wrap_Model.sp_end o)%nat -> action (Wrap_Model.sp_meta o) = None) spans ->
  action (Wrap_Spec.gather extend [] spans pos) = None.
Proof. intros spans pos F. rewrite gather_none by exact F. reflexivity. Qed.
Print Assumptions C122_no_action.
(** The metadata of the characters of the lines is that of the spans over them. *)
Theorem C122_metadata : forall rnd gr gw ls hov c,
  (forall t, concat (gr t) = t) -> (forall t g, In g (gr t) -> g <> []) -> Wrap_Spec.aligned (Wrap_Spec.spans_of c) 0 (Wrap_Model.c_text c) ->
  exists strips, lines rnd gr gw ls hov c = Some strips /\
    Forall (fun x => Forall (fun g => exists pos, glyph_meta g = Wrap_Spec.gather extend [] (Wrap_Spec.spans_of c) pos) (Wrap_Spec.view plain x)) strips.
Proof.
  intros rnd gr gw ls hov c Hgr Hne AL.
  destruct (Wrap2_Proofs.lines_spec gr gw style_apply plain style_empty [] meta_empty extend (restyle rnd ls hov) Hgr Hne empty_plain meta_empty_nil (fun s => eq_refl) c AL)
    as (s1 & A1 & A2 & _).
  exists s1. split; [exact A1|].
  assert (P : forall base spans t pos, Forall (fun g => exists pos, glyph_meta g = Wrap_Spec.gather extend [] spans pos)
    (Wrap_Spec.painted style_apply [] extend (restyle rnd ls hov) base spans pos t)).
  { intros base spans. induction t as [|ch r IH]; intros pos; cbn [Wrap_Spec.painted]; constructor; [|apply IH]. exists pos. reflexivity. }
  assert (Q : forall l pos, Forall (Forall (fun g => exists pos, glyph_meta g = Wrap_Spec.gather extend [] (Wrap_Spec.spans_of c) pos))
    (Wrap_Spec.lines_look style_apply plain [] extend (restyle rnd ls hov) c pos l)).
  { induction l as [|x r IH]; intros pos; cbn [Wrap_Spec.lines_look]; constructor; [apply P|apply IH]. }
  specialize (Q (Wrap_Model.source_lines c) 0%nat). rewrite Forall_forall in Q. apply Forall_forall. intros x I. apply Q.
  apply (in_map (@Wrap_Spec.view style (list (text * text)) plain)) in I.
  match type of A2 with _ = ?y => match type of I with In _ ?z => assert (E : z = y) by exact A2 end end. rewrite E in I. exact I.
Qed.
Print Assumptions C122_metadata.

(** *** Colours *)
(** On an opaque background all of a link is opaque, whatever the stylesheet says. *)
Theorem C122_opaque : forall rnd s l hovered b, s_bg s = Some b -> opaque b ->
  exists f e, s_fg (apply_link rnd s l hovered) = Some f /\ s_bg (apply_link rnd s l hovered) = Some e /\ opaque f /\ opaque e.
Proof.
  intros rnd s l hovered b E O. unfold apply_link. cbn [s_fg s_bg]. rewrite E.
  set (gb := if hovered then or_else (l_bg_hover l) (l_bg l) else l_bg l). set (gf := if hovered then or_else (l_color_hover l) (l_color l) else l_color l).
  destruct (effective_opaque rnd gb b O) as (e & E1 & E2). rewrite E1.
  assert (F : exists f, effective_fg rnd gf (Some e) (Some b) (s_fg s) = Some f /\ opaque f).
  { unfold effective_fg. destruct gf as [c|]; [|eexists; split; [reflexivity|apply contrasting_opaque]].
    destruct (c_auto c); [eexists; split; [reflexivity|apply contrasting_opaque]|].
    destruct (Qle_bool 1 (c_a c)) eqn:A; cbn [negb].
    - exists c. split; [reflexivity|]. apply Qle_bool_iff. exact A.
    - eexists. split; [reflexivity|]. apply blend_over_opaque. exact E2. }
  destruct F as (f & F1 & F2). exists f, e. auto.
Qed.
Print Assumptions C122_opaque.

(** Opaque colours of the stylesheet are used as they are, those for hovering first;
    where it gives no background the text's own stays. *)
Theorem C122_given : forall rnd s l hovered,
  (forall c, chosen hovered (l_bg l) (l_bg_hover l) = Some c -> opaque c -> s_bg (apply_link rnd s l hovered) = Some c) /\
  (chosen hovered (l_bg l) (l_bg_hover l) = None -> s_bg (apply_link rnd s l hovered) = s_bg s) /\
  (forall c, chosen hovered (l_color l) (l_color_hover l) = Some c -> opaque c -> c_auto c = false -> s_fg (apply_link rnd s l hovered) = Some c).
Proof.
  intros rnd s l hovered. unfold apply_link, chosen, opaque. cbn [s_fg s_bg]. repeat split.
  - intros c H O. apply Qle_bool_iff in O.
    assert (X : (if hovered then or_else (l_bg_hover l) (l_bg l) else l_bg l) = Some c) by (destruct hovered; [destruct (l_bg_hover l)|]; exact H).
    rewrite X. unfold effective_bg. destruct (s_bg s); rewrite ?O; reflexivity.
  - intros H. assert (X : (if hovered then or_else (l_bg_hover l) (l_bg l) else l_bg l) = None).
    { destruct hovered; [destruct (l_bg_hover l)|]; exact H. }
    rewrite X. reflexivity.
  - intros c H O A. apply Qle_bool_iff in O.
    assert (X : (if hovered then or_else (l_color_hover l) (l_color l) else l_color l) = Some c) by (destruct hovered; [destruct (l_color_hover l)|]; exact H).
    rewrite X. unfold effective_fg. rewrite A, O. reflexivity.
Qed.
Print Assumptions C122_given.

(** Translucent ones are blended: the background over the text's own, the colour over
    the background that results. *)
Theorem C122_blended : forall rnd s l hovered,
  (forall c b, chosen hovered (l_bg l) (l_bg_hover l) = Some c -> ~ opaque c -> s_bg s = Some b ->
     s_bg (apply_link rnd s l hovered) = Some (blend_over rnd c b)) /\
  (forall c e, chosen hovered (l_color l) (l_color_hover l) = Some c -> ~ opaque c -> c_auto c = false ->
     s_bg (apply_link rnd s l hovered) = Some e -> s_fg (apply_link rnd s l hovered) = Some (blend_over rnd c e)).
Proof.
  intros rnd s l hovered. unfold apply_link, chosen, opaque. cbn [s_fg s_bg]. split.
  - intros c b H O B. assert (O' : Qle_bool 1 (c_a c) = false).
    { destruct (Qle_bool 1 (c_a c)) eqn:E; [|reflexivity]. apply Qle_bool_iff in E. contradiction. }
    assert (X : (if hovered then or_else (l_bg_hover l) (l_bg l) else l_bg l) = Some c) by (destruct hovered; [destruct (l_bg_hover l)|]; exact H).
    rewrite X, B. cbn. rewrite O'. reflexivity.
  - intros c e H O A B. assert (O' : Qle_bool 1 (c_a c) = false).
    { destruct (Qle_bool 1 (c_a c)) eqn:E; [|reflexivity]. apply Qle_bool_iff in E. contradiction. }
    assert (X : (if hovered then or_else (l_color_hover l) (l_color l) else l_color l) = Some c) by (destruct hovered; [destruct (l_color_hover l)|]; exact H).
    rewrite X, B. unfold effective_fg. rewrite A, O'. reflexivity.
Qed.
Print Assumptions C122_blended.

(** Where the stylesheet gives no colour for links, or an automatic one, they can be
    read on their background: the brightness differs. *)
Theorem C122_readable : forall rnd s l hovered, rounding rnd -> accurate rnd ->
  bytes_opt (s_bg s) -> bytes_opt (l_bg l) -> bytes_opt (l_bg_hover l) -> s_bg (apply_link rnd s l hovered) <> None ->
  exists f e, s_bg (apply_link rnd s l hovered) = Some e /\
    (chosen hovered (l_color l) (l_color_hover l) = None -> s_fg (apply_link rnd s l hovered) = Some f /\ (2 # 5 <= Qabs (luma f - luma e))%Q) /\
    (forall c, chosen hovered (l_color l) (l_color_hover l) = Some c -> c_auto c = true -> (0 <= c_a c)%Q ->
       s_fg (apply_link rnd s l hovered) = Some f /\
       ((c_a c < 1)%Q -> (c_a c * (1 # 2) - (1 # 500) <= Qabs (luma f - luma e))%Q) /\ ((1 <= c_a c)%Q -> (1 # 2 <= Qabs (luma f - luma e))%Q)).
Proof.
  intros rnd s l hovered R A B1 B2 B3. unfold apply_link, chosen. cbn [s_fg s_bg].
  set (gb := if hovered then or_else (l_bg_hover l) (l_bg l) else l_bg l).
  assert (Gb : bytes_opt gb) by (unfold gb; destruct hovered; [destruct (l_bg_hover l)|]; assumption).
  pose proof (effective_bytes rnd gb (s_bg s) Gb B1) as Eb.
  destruct (effective_bg rnd gb (s_bg s)) as [e|]; [|congruence]. intros _. cbn in Eb.
  set (gf := if hovered then or_else (l_color_hover l) (l_color l) else l_color l).
  assert (G : (if hovered then match l_color_hover l with Some c => Some c | None => l_color l end else l_color l) = gf) by (unfold gf; destruct hovered; [destruct (l_color_hover l)|]; reflexivity).
  rewrite G. clearbody gf gb. clear G.
  destruct gf as [c|]; cbn [effective_fg].
  - exists (contrasting rnd e (c_a c)), e. split; [reflexivity|]. split; [discriminate|].
    intros c' H Au P. injection H as <-. rewrite Au. split; [reflexivity|]. split; intros X.
    + apply (Colour_Props.C67_soft rnd e (c_a c) R A Eb). split; assumption.
    + apply (Colour_Props.C67_contrast rnd e 0 A Eb). exact X.
  - exists (contrasting rnd e (rnd (87 # 100))), e. split; [reflexivity|]. split; [|discriminate].
    intros _. split; [reflexivity|].
    assert (X : (86 # 100 <= rnd (87 # 100))%Q /\ (rnd (87 # 100) < 1)%Q).
    { pose proof (A (87 # 100)) as P. apply Qabs_Qle_condition in P. rewrite (Qabs_pos (87 # 100)) in P by lra.
      assert (((1 # 2 ^ 24) * (87 # 100) <= 1 # 1000)%Q) by (vm_compute; discriminate). lra. }
    destruct X as [X1 X2]. destruct (Colour_Props.C67_soft rnd e (rnd (87 # 100)) R A Eb) as [_ S]; [split; [lra|exact X2]|]. lra.
Qed.
Print Assumptions C122_readable.
(** With no background at all, and no colour given, the text's own colour stays. *)
Theorem C122_nothing : forall rnd s l hovered,
  chosen hovered (l_bg l) (l_bg_hover l) = None -> chosen hovered (l_color l) (l_color_hover l) = None -> s_bg s = None ->
  s_fg (apply_link rnd s l hovered) = s_fg s /\ s_bg (apply_link rnd s l hovered) = None.
Proof.
  intros rnd s l hovered H1 H2 B. unfold apply_link, chosen in *. cbn [s_fg s_bg].
  destruct hovered; [destruct (l_bg_hover l), (l_color_hover l); try discriminate|]; cbn [or_else]; rewrite H1, H2, B; split; reflexivity.
Qed.
Print Assumptions C122_nothing.

(** *** Attributes *)
(** The text's own attributes and those of the stylesheet come together; under the pointer
    those for hovering are added. *)
Theorem C122_attributes : forall rnd s l hovered,
  let r := apply_link rnd s l hovered in
  (s_bold r = true <-> s_bold s = true \/ t_bold (l_style l) = true \/ (hovered = true /\ t_bold (l_style_hover l) = true)) /\
  (s_dim r = true <-> s_dim s = true \/ t_dim (l_style l) = true \/ (hovered = true /\ t_dim (l_style_hover l) = true)) /\
  (s_italic r = true <-> s_italic s = true \/ t_italic (l_style l) = true \/ (hovered = true /\ t_italic (l_style_hover l) = true)) /\
  (s_strike r = true <-> s_strike s = true \/ t_strike (l_style l) = true \/ (hovered = true /\ t_strike (l_style_hover l) = true)) /\
  (s_reverse r = true <-> s_reverse s = true \/ t_reverse (l_style l) = true \/ (hovered = true /\ t_reverse (l_style_hover l) = true)).
Proof.
  intros rnd s l hovered. unfold apply_link, merged. cbv zeta. cbn [s_bold s_dim s_italic s_strike s_reverse].
  destruct hovered; cbn [t_bold t_dim t_italic t_strike t_reverse]; rewrite !orb_true_iff;
    repeat match goal with |- _ /\ _ => split end; intuition discriminate.
Qed.
Print Assumptions C122_attributes.
(** A link is underlined, unless the pointer is on it: then only if the stylesheet asks
    for it, for links or for hovered ones. *)
Theorem C122_underline : forall rnd s l,
  s_underline (apply_link rnd s l false) = true /\
  (s_underline (apply_link rnd s l true) = true <-> t_underline (l_style l) = true \/ t_underline (l_style_hover l) = true).
Proof. intros rnd s l. split; [reflexivity|]. cbn. apply orb_true_iff. Qed.
Print Assumptions C122_underline.
(** So a stylesheet cannot take the underline from a link that is not hovered, and text
    underlined by its markup is not underlined under the pointer. *)
Theorem C122_underline_refuted : forall rnd s l, t_underline (l_style l) = false -> t_underline (l_style_hover l) = false -> s_underline s = true ->
  s_underline (apply_link rnd s l false) = true /\ s_underline (apply_link rnd s l true) = false.
Proof. intros rnd s l H1 H2 _. split; [reflexivity|]. cbn. rewrite H1, H2. reflexivity. Qed.
Print Assumptions C122_underline_refuted.

(** If the stylesheet gives nothing for hovering and asks for the underline, a link looks
    the same under the pointer. *)
Theorem C122_still : forall rnd s l, l_color_hover l = None -> l_bg_hover l = None -> l_style_hover l = no_attrs -> t_underline (l_style l) = true ->
  apply_link rnd s l true = apply_link rnd s l false.
Proof.
  intros rnd s l H1 H2 H3 H4. unfold apply_link, merged. rewrite H1, H2, H3. cbn. rewrite !orb_false_r, H4. reflexivity.
Qed.
Print Assumptions C122_still.

(** *** Cases *)
Definition red := rgb_of 255 0 0.
Definition navy := rgb_of 0 0 128.
Definition sheet := Links (Some (auto_of (87 # 100))) None None (Some red) (Attrs false false false true false false) (Attrs true false false false false false).
Example on_navy : let s := Style (Some red) (Some navy) false false true false false false in
  s_bg (apply_link rnd32 s sheet false) = Some navy /\ s_bg (apply_link rnd32 s sheet true) = Some red /\
  s_bold (apply_link rnd32 s sheet true) = true /\ s_bold (apply_link rnd32 s sheet false) = false /\
  option_map c_r (s_fg (apply_link rnd32 s sheet false)) = Some 222%Z.
Proof. vm_compute. repeat split. Qed.
Example nested :
  let outer := Wrap_Model.Span 0 3 plain [(str "@click", str "out")] in
  let inner := Wrap_Model.Span 1 2 plain [(str "@click", str "in")] in
  let bold := Wrap_Model.Span 0 2 plain [] in
  map (fun pos => action (Wrap_Spec.gather extend [] [outer; inner; bold] pos)) [0; 1; 2; 3]%nat
  = [Some (str "out"); Some (str "in"); Some (str "out"); None].
Proof. vm_compute. reflexivity. Qed.
Example in_text :
  let c := Wrap_Model.Content (str "ab") None (Some [Wrap_Model.Span 1 2 plain [(str "@click", str "go")]]) in
  option_map (map (fun x => map glyph_style (Wrap_Spec.view plain x))) (lines rnd32 (map (fun c => [c])) (fun _ => 1%nat) (Some sheet) (Some (str "go")) c)
  = Some [[plain; apply_link rnd32 plain sheet true]].
Proof. vm_compute. reflexivity. Qed.
