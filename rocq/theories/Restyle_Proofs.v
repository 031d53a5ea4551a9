From Coq Require Import List Bool Arith Lia.
From Verif Require Import Restyle_Model Restyle_Spec.
Import ListNotations.

Section Restyle.
Context {M C Vis R : Type}.
Notation widget := (widget M C Vis R).
Notation wdata := (wdata M C Vis R).
Notation style := (style C Vis R).
Notation WW := (W M C Vis R).
Notation meta_ := (w_meta M C Vis R).
Notation flag_ := (w_flag M C Vis R).
Notation vis_ := (w_visible M C Vis R).
Notation gath_ := (w_gathers M C Vis R).
Notation sty_ := (w_style M C Vis R).
Notation inl_ := (w_inline M C Vis R).
Variable cascade : M -> list M -> style.
Variable theme_color : option C.
Variable visible : Vis.
Variable see_through : C -> bool.
Variable over tinted : C -> C -> C.
Notation resolve := (resolve M C Vis R cascade see_through over tinted).
Notation new_style := (new_style M C Vis R cascade).
Notation pass_on := (pass_on C Vis R see_through over tinted).
Notation style_for := (style_for cascade theme_color visible see_through over tinted).
Notation from_theme := (from_theme C Vis theme_color visible).
Notation is_dirty := (is_dirty M C Vis R).
Notation mark_clean := (mark_clean M C Vis R).
Notation inherited := (inherited C Vis).
Notation data := (data M C Vis R).
Notation kids := (kids M C Vis R).

Lemma widget_ind' : forall P : widget -> Prop, (forall d ks, Forall P ks -> P (WW d ks)) -> forall w, P w.
Proof.
  intros P H. fix IH 1. intros [d ks]. apply H. induction ks as [|k ks IHk]; constructor; [apply IH|exact IHk].
Qed.

(** What is passed on at the foot of a lineage. *)
Definition good (h : inherited) (l : list wdata) : Prop :=
  h_color _ _ h = nearest_color cascade theme_color (lineage l) /\
  h_auto _ _ h = nearest_auto cascade theme_color (lineage l) /\
  h_background _ _ h = backdrop cascade see_through over tinted (lineage l) /\
  h_visibility _ _ h = nearest_visibility cascade visible (lineage l).
Lemma good_root : good from_theme [].
Proof. repeat split. Qed.
Lemma new_right : forall d l h, good h l -> style_for (lineage (d :: l)) (new_style d (map meta_ l) h).
Proof.
  intros d l h (H1 & H2 & H3 & H4). cbn [lineage Restyle_Spec.style_for]. unfold Restyle_Model.new_style.
  set (x := (d, map meta_ l)). cbn [nearest_color nearest_auto nearest_visibility].
  change (cascade (meta_ d) (map meta_ l)) with (css cascade x). set (s := css cascade x).
  assert (A : forall i, s_color _ _ _ (apply_inline C Vis R i (apply_inheritance C Vis R s h)) = first_of (i_color _ i) (first_of (s_color _ _ _ s) (h_color _ _ h))).
  { intros i. unfold apply_inline, apply_inheritance, or_else, first_of. destruct (s_color _ _ _ s), (h_color _ _ h), (i_color _ i); reflexivity. }
  assert (B : s_color _ _ _ (apply_inheritance C Vis R s h) = first_of (s_color _ _ _ s) (h_color _ _ h)).
  { unfold apply_inheritance, first_of. destruct (s_color _ _ _ s), (h_color _ _ h); reflexivity. }
  assert (D : s_auto _ _ _ (apply_inheritance C Vis R s h) = match s_color _ _ _ s, h_color _ _ h with None, Some _ => h_auto _ _ h | _, _ => s_auto _ _ _ s end).
  { unfold apply_inheritance. destruct (s_color _ _ _ s), (h_color _ _ h); reflexivity. }
  assert (E : forall (T : Type) (f : style -> T), (forall c a, f (Style C Vis R c a (s_background _ _ _ s) (s_tint _ _ _ s) (s_btint _ _ _ s) (h_background _ _ h)
    (if s_visibility_set _ _ _ s then s_visibility _ _ _ s else h_visibility _ _ h) (s_visibility_set _ _ _ s) (s_rest _ _ _ s)) = f (Style C Vis R None true (s_background _ _ _ s) (s_tint _ _ _ s) (s_btint _ _ _ s) (h_background _ _ h)
    (if s_visibility_set _ _ _ s then s_visibility _ _ _ s else h_visibility _ _ h) (s_visibility_set _ _ _ s) (s_rest _ _ _ s))) -> f (apply_inheritance C Vis R s h) = f (Style C Vis R None true (s_background _ _ _ s) (s_tint _ _ _ s) (s_btint _ _ _ s) (h_background _ _ h)
    (if s_visibility_set _ _ _ s then s_visibility _ _ _ s else h_visibility _ _ h) (s_visibility_set _ _ _ s) (s_rest _ _ _ s))).
  { intros T f F. unfold apply_inheritance. destruct (s_color _ _ _ s), (h_color _ _ h); apply F. }
  unfold said. fold s. cbn [fst x]. rewrite <- H1, <- H2, <- H3, <- H4.
  assert (FO : forall (T : Type) (o : option T), first_of None o = o) by reflexivity.
  assert (FA : forall (a b c : option C), first_of (first_of a b) c = first_of a (first_of b c)) by (intros [?|] [?|] ?; reflexivity).
  destruct (inl_ d) as [i|]; repeat split; rewrite ?FO, ?FA; auto; try (unfold apply_inline; cbn [s_auto s_visibility s_visibility_set s_behind s_background s_tint s_btint s_rest]); auto.
  all: rewrite E; auto.
Qed.
Lemma pass_right : forall d l s h, good h l -> style_for (lineage (d :: l)) s -> s = sty_ d -> good (pass_on s h) (d :: l).
Proof.
  intros d l s h (H1 & H2 & H3 & H4) S ->. cbn [lineage Restyle_Spec.style_for] in S. destruct S as (S1 & S2 & S3 & S4 & S5 & S6 & S7 & S8 & S9).
  unfold good, Restyle_Model.pass_on. cbn [h_color h_auto h_background h_visibility]. repeat split; auto.
  cbn [lineage backdrop]. unfold effective_background. rewrite S6, S8, H3. destruct (said _ _ _ _) as [bg|]; [|reflexivity].
  destruct (backdrop _ _ _ _ _); destruct (said _ (i_btint C) _ _); reflexivity.
Qed.
(** Only the meta data and the inline style of a widget matter. *)
Definition like (d d' : wdata) : Prop := meta_ d' = meta_ d /\ inl_ d' = inl_ d.
Lemma like_style : forall d d' l s, like d d' -> style_for (lineage (d :: l)) s -> style_for (lineage (d' :: l)) s.
Proof.
  intros d d' l s [E1 E2] S. cbn [lineage Restyle_Spec.style_for nearest_color nearest_auto nearest_visibility] in *. unfold said, css in *. cbn [fst snd] in *. rewrite E1, E2. exact S.
Qed.

Fixpoint right (l : list wdata) (w : widget) : Prop :=
  match w with
  | W _ _ _ _ d ks => vis_ d = true -> style_for (lineage (d :: l)) (sty_ d) /\ fold_right (fun k P => right (d :: l) k /\ P) True ks
  end.
Fixpoint covered (l : list wdata) (w : widget) : Prop :=
  match w with
  | W _ _ _ _ d ks => vis_ d = true -> flag_ d = true \/
      (style_for (lineage (d :: l)) (sty_ d) /\ fold_right (fun k P => covered (d :: l) k /\ P) True ks)
  end.
Lemma fold_Forall : forall (P : widget -> Prop) ks, fold_right (fun k Q => P k /\ Q) True ks <-> Forall P ks.
Proof. intros P. induction ks as [|k ks IH]; cbn; split; intros H; auto; [destruct H; constructor; tauto|inversion H; subst; tauto]. Qed.

Lemma clean_right : forall w l, right l w -> vis_ (data w) = false -> right l (mark_clean w).
Proof. intros [d ks] l H V. cbn in *. intros X. congruence. Qed.
Lemma hidden_right : forall w l, vis_ (data w) = false -> right l w.
Proof. intros [d ks] l V. cbn in *. intros X. congruence. Qed.
Lemma clean_vis : forall w, vis_ (data (mark_clean w)) = vis_ (data w).
Proof. intros [d ks]. reflexivity. Qed.
Lemma clean_dirty : forall w, is_dirty (mark_clean w) = false.
Proof.
  induction w as [d ks IH] using widget_ind'. cbn. destruct (gath_ d); [|reflexivity]. cbn.
  induction IH as [|k ks K _ IH]; cbn; auto. rewrite K, IH. reflexivity.
Qed.

Lemma resolve_right : forall w l c pd h, good h l -> (pd = true \/ (c = false /\ covered l w)) -> right l (resolve w c pd (map meta_ l) h).
Proof.
  induction w as [d ks IH] using widget_ind'. intros l c pd h G K. cbn [Restyle_Model.resolve data].
  destruct (vis_ d) eqn:V; cbn [negb].
  2: { apply hidden_right. destruct c; [rewrite clean_vis|]; exact V. }
  set (restyle := (negb c && is_dirty (WW d ks) || pd)%bool).
  set (d' := if restyle then set_flag M C Vis R false (set_style M C Vis R (new_style d (map meta_ l) h) d) else if c then set_flag M C Vis R false d else d).
  assert (LK : like d d') by (unfold d', like; destruct restyle; [|destruct c]; cbn; auto).
  assert (VD : vis_ d' = true) by (unfold d'; destruct restyle; [|destruct c]; cbn; auto).
  assert (ST : style_for (lineage (d' :: l)) (sty_ d') /\ (restyle = true \/ (c = false /\ d' = d /\ Forall (covered (d :: l)) ks))).
  { destruct restyle eqn:RS.
    - split; [|auto]. apply like_style with d; auto. unfold d'. cbn. apply new_right; auto.
    - subst restyle. apply orb_false_iff in RS. destruct RS as [RS ->]. destruct K as [K|[-> K]]; [discriminate|]. cbn [negb andb] in RS. cbn [covered] in K. destruct (K V) as [F|[S Q]].
      + cbn in RS. rewrite F in RS. discriminate.
      + apply fold_Forall in Q. unfold d'. split; auto. }
  destruct ST as [ST REST]. cbn [right]. fold d'. intros _. split; [exact ST|]. apply fold_Forall. rewrite Forall_map.
  assert (G' : good (pass_on (sty_ d') h) (d' :: l)) by (apply pass_right; auto).
  assert (ML : meta_ d :: map meta_ l = map meta_ (d' :: l)) by (cbn; destruct LK as [-> _]; reflexivity). rewrite ML.
  rewrite Forall_forall in IH |- *. intros k Hk. apply IH; auto.
  destruct REST as [->|(-> & -> & Q)]; [left; reflexivity|]. destruct restyle; [left; reflexivity|]. right. rewrite andb_false_r. split; auto. rewrite Forall_forall in Q. auto.
Qed.

Lemma edit_covered : forall w w' l, right l w -> edit w w' -> covered l w'.
Proof.
  induction w as [d ks IH] using widget_ind'. intros w' l H E. inversion E; subst.
  - cbn. auto.
  - cbn. intros X. congruence.
  - cbn in *. intros _. right. match goal with V : vis_ d = true |- _ => destruct (H V) as [S Q] end. split; auto. apply fold_Forall. apply fold_Forall in Q.
    match goal with F : Forall2 _ _ _ |- _ => clear H S E; revert IH Q; induction F end; intros IH Q; constructor; inversion IH; inversion Q; subst; eauto.
Qed.
Lemma right_chain : forall p w l ds, right l w -> chain w p = Some ds -> exists k, at_ w p = Some k /\ style_for (lineage (rev ds ++ l)) (sty_ (data k)).
Proof.
  induction p as [|i p IH]; intros [d ks] l ds H E; cbn [chain] in E; cbn [data] in E; destruct (vis_ d) eqn:V; try discriminate; cbn [right] in H; destruct (H V) as [S Q].
  - injection E as <-. exists (WW d ks). split; auto.
  - cbn [kids] in E. destruct (nth_error ks i) as [k|] eqn:N; [|discriminate]. destruct (chain k p) as [r|] eqn:CH; [|discriminate]. cbn in E. injection E as <-.
    apply fold_Forall in Q. rewrite Forall_forall in Q. destruct (IH k (d :: l) r (Q k (nth_error_In _ _ N)) CH) as (j & A & B).
    exists j. cbn [at_ kids]. rewrite N. split; auto. cbn [rev]. rewrite <- app_assoc. exact B.
Qed.

(** *** Flags and frames *)
Lemma resolve_vis : forall w c pd a h, vis_ (data (resolve w c pd a h)) = vis_ (data w).
Proof.
  intros [d ks] c pd a h. cbn [Restyle_Model.resolve data]. destruct (vis_ d) eqn:V; cbn [negb].
  - cbn [data]. destruct (negb c && is_dirty (WW d ks) || pd)%bool; [|destruct c]; cbn; auto.
  - destruct c; [rewrite clean_vis|]; exact V.
Qed.
Lemma resolve_clean : forall w c pd a h, (vis_ (data w) = true \/ c = true \/ is_dirty w = false) -> is_dirty (resolve w c pd a h) = false.
Proof.
  induction w as [d ks IH] using widget_ind'. intros c pd a h K. cbn [Restyle_Model.resolve data]. cbn [data] in K. destruct (vis_ d) eqn:V; cbn [negb].
  2: { destruct c; [apply clean_dirty|]. destruct K as [K|[K|K]]; congruence. }
  set (restyle := (negb c && is_dirty (WW d ks) || pd)%bool).
  set (d' := if restyle then set_flag M C Vis R false (set_style M C Vis R (new_style d a h) d) else if c then set_flag M C Vis R false d else d).
  assert (GD : gath_ d' = gath_ d) by (unfold d'; destruct restyle; [|destruct c]; reflexivity).
  assert (X : flag_ d' = false /\ (gath_ d = true -> (restyle || c)%bool = true \/ existsb is_dirty ks = false)).
  { unfold d'. destruct restyle eqn:RS; [auto|]. destruct c; [auto|]. subst restyle. apply orb_false_iff in RS. destruct RS as [RS _]. cbn [negb andb Restyle_Model.is_dirty] in RS. apply orb_false_iff in RS. destruct RS as [F RS]. split; auto.
    intros G. rewrite G in RS. auto. }
  destruct X as [F X]. cbn [Restyle_Model.is_dirty]. rewrite F, GD. cbn [orb]. destruct (gath_ d) eqn:G; [|reflexivity]. cbn [andb]. specialize (X eq_refl).
  apply not_true_is_false. intros EX. apply existsb_exists in EX. destruct EX as (k' & IK & DK). apply in_map_iff in IK. destruct IK as (k & <- & IK). rewrite Forall_forall in IH. rewrite IH in DK; auto; [discriminate|].
  destruct (vis_ (data k)); [auto|]. right. destruct X as [->|X]; [left; reflexivity|right]. destruct (is_dirty k) eqn:DK'; auto. rewrite <- X. symmetry. apply existsb_exists. eauto.
Qed.
(** A tree in which no visible widget is dirty. *)
Fixpoint settled (w : widget) : Prop :=
  match w with
  | W _ _ _ _ d ks => vis_ d = true -> is_dirty w = false /\ fold_right (fun k P => settled k /\ P) True ks
  end.
Lemma resolve_settled : forall w c pd a h, settled (resolve w c pd a h).
Proof.
  induction w as [d ks IH] using widget_ind'. intros c pd a h. pose proof (resolve_clean (WW d ks) c pd a h) as CL. pose proof (resolve_vis (WW d ks) c pd a h) as VV.
  cbn [Restyle_Model.resolve data] in *. destruct (vis_ d) eqn:V; cbn [negb] in *.
  - match type of CL with _ -> is_dirty ?X = false => set (x := X) in * end. assert (Y : exists d' f, x = WW d' (map f ks) /\ (forall k, In k ks -> settled (f k))).
    { unfold x. do 2 eexists. split; [reflexivity|]. intros k Hk. rewrite Forall_forall in IH. apply IH; auto. }
    destruct Y as (d' & f & Y & Z). rewrite Y in *. cbn [settled]. intros _. split; [apply CL; auto|]. apply fold_Forall. rewrite Forall_map. apply Forall_forall. exact Z.
  - destruct c; cbn [settled Restyle_Model.mark_clean]; intros X; cbn in X; congruence.
Qed.
Lemma settled_fixed : forall w a h, settled w -> resolve w false false a h = w.
Proof.
  induction w as [d ks IH] using widget_ind'. intros a h S. cbn [Restyle_Model.resolve data]. destruct (vis_ d) eqn:V; cbn [negb]; [|reflexivity]. cbn [settled] in S. destruct (S V) as [D Q]. cbn [negb andb]. rewrite D. cbn [orb]. rewrite andb_false_r. f_equal. apply fold_Forall in Q. revert IH Q. clear. intros IH Q.
  induction ks as [|k ks IHk]; cbn; auto. inversion IH; inversion Q; subst. f_equal; auto.
Qed.
Lemma settled_chain : forall p w ds, settled w -> chain w p = Some ds -> exists k, at_ w p = Some k /\ is_dirty k = false.
Proof.
  induction p as [|i p IH]; intros [d ks] ds H E; cbn [chain data] in E; destruct (vis_ d) eqn:V; try discriminate; cbn [settled] in H; destruct (H V) as [S Q].
  - exists (WW d ks). split; auto.
  - cbn [kids] in E. destruct (nth_error ks i) as [k|] eqn:N; [|discriminate]. destruct (chain k p) as [r|] eqn:CH; [|discriminate].
    apply fold_Forall in Q. rewrite Forall_forall in Q. destruct (IH k r (Q k (nth_error_In _ _ N)) CH) as (j & A & B). exists j. cbn [at_ kids]. rewrite N. auto.
Qed.
(** The resolver changes styles and flags only. *)
Lemma resolve_chain : forall p w c pd a h, option_map (map (fun d => (meta_ d, inl_ d))) (chain (resolve w c pd a h) p) = option_map (map (fun d => (meta_ d, inl_ d))) (chain w p).
Proof.
  induction p as [|i p IH]; intros [d ks] c pd a h; pose proof (resolve_vis (WW d ks) c pd a h) as V; cbn [chain]; rewrite V; cbn [data]; destruct (vis_ d) eqn:VD; auto.
  - cbn [Restyle_Model.resolve data]. rewrite VD. cbn [negb data option_map map]. destruct (negb c && is_dirty (WW d ks) || pd)%bool; [|destruct c]; reflexivity.
  - cbn [Restyle_Model.resolve data]. rewrite VD. cbn [negb data kids]. rewrite nth_error_map. destruct (nth_error ks i) as [k|]; [|reflexivity]. cbn [option_map].
    match goal with |- context [chain (resolve k ?c' ?pd' ?a' ?h') p] => specialize (IH k c' pd' a' h') end.
    destruct (chain (resolve k _ _ _ _) p) as [r|]; destruct (chain k p) as [r'|]; cbn in *; try discriminate; auto. injection IH as IH. rewrite IH. do 2 f_equal.
    match goal with |- context [if ?b then _ else _] => destruct b; [|destruct c] end; reflexivity.
Qed.
Lemma lineage_like : forall l l', map (fun d => (meta_ d, inl_ d)) l = map (fun d => (meta_ d, inl_ d)) l' ->
  map (fun x : wdata * list M => (meta_ (fst x), inl_ (fst x), snd x)) (lineage l) = map (fun x : wdata * list M => (meta_ (fst x), inl_ (fst x), snd x)) (lineage l').
Proof.
  induction l as [|d l IH]; intros [|d' l'] E; cbn in *; try discriminate; auto. injection E as E1 E2 E3. rewrite E1, E2. f_equal; auto. f_equal.
  revert E3. clear. revert l'. induction l as [|d l IH]; intros [|d' l'] E; cbn in *; try discriminate; auto. injection E as E1 _ E3. f_equal; auto.
Qed.
Lemma style_for_like : forall l l' s, map (fun x : wdata * list M => (meta_ (fst x), inl_ (fst x), snd x)) l = map (fun x : wdata * list M => (meta_ (fst x), inl_ (fst x), snd x)) l' ->
  style_for l s -> style_for l' s.
Proof.
  assert (A : forall l l' : list (wdata * list M), map (fun x : wdata * list M => (meta_ (fst x), inl_ (fst x), snd x)) l = map (fun x : wdata * list M => (meta_ (fst x), inl_ (fst x), snd x)) l' ->
    nearest_color cascade theme_color l = nearest_color cascade theme_color l' /\ nearest_auto cascade theme_color l = nearest_auto cascade theme_color l' /\
    backdrop cascade see_through over tinted l = backdrop cascade see_through over tinted l' /\ nearest_visibility cascade visible l = nearest_visibility cascade visible l').
  { induction l as [|x l IH]; intros [|x' l'] E; cbn in E; try discriminate; [auto|]. injection E as E1 E2 E3 E4. destruct (IH l' E4) as (A1 & A2 & A3 & A4). cbn [nearest_color nearest_auto backdrop nearest_visibility].
    unfold said, css. rewrite E1, E2, E3, A1, A2, A3, A4. auto. }
  intros [|x l] [|x' l'] s E S; cbn in E; try discriminate; auto. pose proof (A _ _ (E : map _ (x :: l) = map _ (x' :: l'))) as (A1 & A2 & _ & A4). injection E as E1 E2 E3 E4. pose proof (A _ _ E4) as (_ & _ & A3 & _). cbn [Restyle_Spec.style_for] in *. rewrite <- A1, <- A2, <- A3, <- A4. unfold said, css in *. rewrite <- E1, <- E2, <- E3. exact S.
Qed.
Lemma style_for_unique : forall l s s', style_for l s -> style_for l s' -> s = s'.
Proof.
  intros [|x l] s s' H H'; [destruct H|]. cbn [Restyle_Spec.style_for] in *. destruct s, s'. cbn in *. intuition congruence.
Qed.
End Restyle.
