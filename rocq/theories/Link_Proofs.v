(** Lemmas on the look of links. *)
From Coq Require Import String ZArith QArith Qabs List Bool Arith Lia Lqa.
From Verif Require Import Text_Model Float32_Model Keys_Proofs Colour_Model Colour_Spec Colour_Proofs Link_Model Link_Spec.
From Verif Require Strip_Model Strip_Spec Wrap_Model Wrap_Spec Wrap2_Proofs.
Import ListNotations.
Open Scope list_scope.

Lemma empty_plain : forall s, style_empty s = true -> s = plain.
Proof. intros [[?|] [?|] [] [] [] [] [] []] E; try discriminate E. reflexivity. Qed.
Lemma meta_empty_nil : forall m, meta_empty m = true -> m = [].
Proof. intros [|? ?] E; [reflexivity|discriminate E]. Qed.

(** how a character with links compares with the one without *)
Definition linked_glyph rnd (ls : option links) (hov : option text) (g g0 : @Wrap_Spec.glyph style meta) : Prop :=
  glyph_char g = glyph_char g0 /\ glyph_meta g = glyph_meta g0 /\ glyph_style g = restyle rnd ls hov (glyph_style g0) (glyph_meta g0).

Lemma painted_linked : forall rnd ls hov base spans t pos,
  Forall2 (linked_glyph rnd ls hov) (Wrap_Spec.painted style_apply [] extend (restyle rnd ls hov) base spans pos t)
    (Wrap_Spec.painted style_apply [] extend (restyle rnd None None) base spans pos t).
Proof.
  intros rnd ls hov base spans. induction t as [|ch r IH]; intros pos; cbn [Wrap_Spec.painted]; constructor; [|apply IH].
  unfold linked_glyph, glyph_char, glyph_meta, glyph_style. cbn [fst snd]. split; [reflexivity|]. split; [reflexivity|].
  f_equal. unfold restyle. destruct (lookup _ _); reflexivity.
Qed.

Lemma looks_linked : forall rnd ls hov c l pos,
  Forall2 (Forall2 (linked_glyph rnd ls hov)) (Wrap_Spec.lines_look style_apply plain [] extend (restyle rnd ls hov) c pos l)
    (Wrap_Spec.lines_look style_apply plain [] extend (restyle rnd None None) c pos l).
Proof.
  intros rnd ls hov c. induction l as [|x r IH]; intros pos; cbn [Wrap_Spec.lines_look]; constructor; [|apply IH].
  apply painted_linked.
Qed.

Lemma Forall2_map2 : forall A B (R : B -> B -> Prop) (f : A -> B) l l', Forall2 R (map f l) (map f l') -> Forall2 (fun a b => R (f a) (f b)) l l'.
Proof.
  intros A B R f. induction l as [|x l IH]; intros [|y l'] H; inversion H; subst; constructor; auto.
Qed.

Lemma lines_linked : forall rnd gr gw ls hov c,
  (forall t, concat (gr t) = t) -> (forall t g, In g (gr t) -> g <> []) -> Wrap_Spec.aligned (Wrap_Spec.spans_of c) 0 (Wrap_Model.c_text c) ->
  exists s s0, lines rnd gr gw ls hov c = Some s /\ lines rnd gr gw None None c = Some s0 /\
    Forall2 (fun a b => Forall2 (linked_glyph rnd ls hov) (Wrap_Spec.view plain a) (Wrap_Spec.view plain b)) s s0.
Proof.
  intros rnd gr gw ls hov c Hgr Hne AL.
  destruct (Wrap2_Proofs.lines_spec gr gw style_apply plain style_empty [] meta_empty extend (restyle rnd ls hov) Hgr Hne empty_plain meta_empty_nil (fun s => eq_refl) c AL)
    as (s1 & A1 & A2 & _).
  destruct (Wrap2_Proofs.lines_spec gr gw style_apply plain style_empty [] meta_empty extend (restyle rnd None None) Hgr Hne empty_plain meta_empty_nil (fun s => eq_refl) c AL)
    as (s2 & B1 & B2 & _).
  exists s1, s2. split; [exact A1|]. split; [exact B1|].
  apply (Forall2_map2 _ _ (Forall2 (linked_glyph rnd ls hov))).
  change (@Wrap_Spec.view style (list (text * text)) plain) with (@Wrap_Spec.view style meta plain) in A2, B2.
  match type of A2 with _ = ?x => match goal with |- Forall2 _ ?y _ => replace y with x by (symmetry; exact A2) end end.
  match type of B2 with _ = ?x => match goal with |- Forall2 _ _ ?y => replace y with x by (symmetry; exact B2) end end.
  apply looks_linked.
Qed.

(** *** Colours *)
Lemma tint_bytes : forall rnd c o, bytes (tint rnd c o).
Proof. intros rnd c o []; cbn; apply u8_clamp_byte. Qed.
Lemma blend_over_bytes : forall rnd c b, bytes c -> bytes (blend_over rnd c b).
Proof. intros rnd c b B. unfold blend_over. destruct (Qle_bool 1 (c_a c)); [exact B|apply tint_bytes]. Qed.
Lemma effective_bytes : forall rnd g b, bytes_opt g -> bytes_opt b -> bytes_opt (effective_bg rnd g b).
Proof.
  intros rnd [g|] [b|] G B; cbn in *; try assumption.
  destruct (negb (Qle_bool 1 (c_a g))); [apply blend_over_bytes; exact G|exact G].
Qed.
Lemma blend_over_opaque : forall rnd c b, opaque b -> opaque (blend_over rnd c b).
Proof.
  intros rnd c b O. unfold blend_over, opaque in *. destruct (Qle_bool 1 (c_a c)) eqn:E; [apply Qle_bool_iff; exact E|exact O].
Qed.
Lemma contrasting_opaque : forall rnd c q, opaque (contrasting rnd c q).
Proof. intros rnd c q. unfold contrasting, opaque. cbv zeta. destruct (Qle_bool 1 q); cbn; lra. Qed.
Lemma effective_opaque : forall rnd g b, opaque b -> exists e, effective_bg rnd g (Some b) = Some e /\ opaque e.
Proof.
  intros rnd [g|] b O; cbn; [|eauto]. destruct (Qle_bool 1 (c_a g)) eqn:E; cbn.
  - exists g. split; [reflexivity|]. apply Qle_bool_iff. exact E.
  - eexists. split; [reflexivity|]. apply blend_over_opaque. exact O.
Qed.

(** *** The action of a character *)
Lemma lookup_app : forall k a b, lookup k (a ++ b) = match lookup k a with Some v => Some v | None => lookup k b end.
Proof. intros k a b. induction a as [|[k' v] r IH]; cbn; [reflexivity|]. destruct (text_eqb k k'); auto. Qed.
Lemma action_extend : forall m o, action (extend m o) = match action o with Some v => Some v | None => action m end.
Proof. intros m o. exact (lookup_app _ o m). Qed.
Lemma gather_app : forall pos a b m, Wrap_Spec.gather (St:=style) extend m (a ++ b) pos = Wrap_Spec.gather extend (Wrap_Spec.gather extend m a pos) b pos.
Proof. intros pos a b. induction a as [|x r IH]; intros m; cbn; [reflexivity|]. apply IH. Qed.
Lemma gather_none : forall pos l m, Forall (fun s => (Wrap_Model.sp_start s <= pos < Wrap_Model.sp_end s)%nat -> action (Wrap_Model.sp_meta s) = None) l ->
  action (Wrap_Spec.gather (St:=style) extend m l pos) = action m.
Proof.
  intros pos l m F. revert m. induction F as [|x r Hx F IH]; intros m; cbn [Wrap_Spec.gather]; [reflexivity|]. rewrite IH.
  destruct (Nat.leb_spec (Wrap_Model.sp_start x) pos), (Nat.ltb_spec pos (Wrap_Model.sp_end x)); cbn [andb]; try reflexivity.
  rewrite action_extend, Hx by (split; assumption). reflexivity.
Qed.
