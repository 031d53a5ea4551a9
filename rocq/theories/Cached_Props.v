(** C58: the layout a container keeps is the one it would compute afresh. *)
From Coq Require Import ZArith List Bool Lia.
From Verif Require Import Bars_Model Pointer_Model Cached_Model Cached_Spec.
Import ListNotations.

Lemma area_eqb_eq : forall a b, area_eqb a b = true <-> a = b.
Proof.
  intros [ax ay aw ah] [bx bb bw bh]. unfold area_eqb. cbn. rewrite !andb_true_iff, !Z.eqb_eq.
  split; [intros [[[-> ->] ->] ->]; reflexivity | intros E; inversion E; auto].
Qed.
Lemma view_eqb_eq : forall a b, view_eqb a b = true <-> a = b.
Proof.
  intros [aw ah] [bw bh]. unfold view_eqb. cbn. rewrite !andb_true_iff, !Z.eqb_eq.
  split; [intros [-> ->]; reflexivity | intros E; inversion E; auto].
Qed.

Section C.
Variable config : Type.
Variable lay : config -> area -> view -> list placement.
Notation run := (run config lay). Notation placements := (placements config lay). Notation start := (start config).
Notation now := (now config). Notation told := (told config). Notation always_told := (always_told config).
Notation held := (held config).

Lemma run_app : forall l m s, run s (l ++ m) = run (run s l) m.
Proof. intros. apply fold_left_app. Qed.
Lemma now_app : forall l m (c : config), now c (l ++ m) = now (now c l) m.
Proof. intros. apply fold_left_app. Qed.
Lemma run_config : forall l s, h_config config (run s l) = now (h_config config s) l.
Proof.
  induction l as [ | [f | f | r v] l IH]; intros s; cbn; auto; unfold run in IH; rewrite IH; cbn; auto.
  unfold now. f_equal. unfold Cached_Model.placements. destruct (h_cache config s) as [[[r0 v0] l0] | ]; [destruct (_ && _) | ]; reflexivity.
Qed.
(** What is kept is what would be computed. *)
Definition valid (s : held) : Prop :=
  match h_cache config s with Some (r, v, l) => l = lay (h_config config s) r v | None => True end.
Lemma valid_ask : forall s r v, valid s -> fst (placements s r v) = lay (h_config config s) r v /\ valid (snd (placements s r v)).
Proof.
  intros [c k] r v H. unfold valid, Cached_Model.placements in *. cbn [h_cache h_config] in *.
  destruct k as [[[r0 v0] l0] | ]; [ | cbn; auto].
  destruct (_ && _) eqn:E; cbn; auto. apply andb_true_iff in E. destruct E as [E1 E2].
  apply area_eqb_eq in E1. apply view_eqb_eq in E2. subst. auto.
Qed.
(** Drawing never makes a cache that does not fit the present configuration: it
    is only a change to a child that can. *)
Lemma valid_run : forall l s b, (b = true -> valid s) -> (forall before r v after, l = before ++ Ask r v :: after -> told b before = true) ->
  told b l = true -> valid (run s l).
Proof.
  induction l as [ | o l IH]; intros s b V A T; [apply V; exact T | ].
  change (run s (o :: l)) with (run (step config lay s o) l).
  destruct o as [f | f | r v].
  - apply (IH _ true); [intros _; exact I | | exact T].
    intros before r v after ->. exact (A (Own f :: before) r v after eq_refl).
  - apply (IH _ false); [discriminate | | exact T].
    intros before r v after ->. exact (A (Kid f :: before) r v after eq_refl).
  - apply (IH _ b); [ | | exact T].
    + intros B. apply valid_ask. auto.
    + intros before r' v' after ->. exact (A (Ask r v :: before) r' v' after eq_refl).
Qed.

Theorem C58_fresh : forall c l r v, always_told (l ++ [Ask r v]) ->
  fst (placements (run (start c) l) r v) = lay (now c l) r v.
Proof.
  intros c l r v H.
  assert (V : valid (run (start c) l)).
  { apply (valid_run l (start c) true); [intros _; exact I | | ].
    - intros before r' v' after ->. apply (H before r' v' (after ++ [Ask r v])). rewrite <- app_assoc. reflexivity.
    - apply (H l r v []). reflexivity. }
  destruct (valid_ask _ r v V) as [E _]. rewrite E, run_config. reflexivity.
Qed.

(** Whatever happened, an arrangement for another region or terminal size than
    the last is fresh. *)
Theorem C58_resized : forall c l r v r' v', (r, v) <> (r', v') ->
  fst (placements (snd (placements (run (start c) l) r v)) r' v') = lay (now c l) r' v'.
Proof.
  intros c l r v r' v' N.
  assert (K : exists m, h_cache config (snd (placements (run (start c) l) r v)) = Some (r, v, m)).
  { unfold Cached_Model.placements. destruct (h_cache config (run (start c) l)) as [[[r0 v0] l0] | ] eqn:E; [ | cbn; eauto].
    destruct (area_eqb r0 r && view_eqb v0 v) eqn:Q; cbn; eauto.
    apply andb_true_iff in Q. destruct Q as [Q1 Q2]. apply area_eqb_eq in Q1. apply view_eqb_eq in Q2. subst. eauto. }
  assert (G : h_config config (snd (placements (run (start c) l) r v)) = now c l).
  { change (h_config config (run (run (start c) l) [Ask r v]) = now c l). rewrite <- run_app, run_config.
    unfold Cached_Spec.now. rewrite fold_left_app. reflexivity. }
  destruct K as [m K]. unfold Cached_Model.placements at 1. rewrite K, G.
  destruct (area_eqb r r' && view_eqb v v') eqn:Q; [ | reflexivity].
  apply andb_true_iff in Q. destruct Q as [Q1 Q2]. apply area_eqb_eq in Q1. apply view_eqb_eq in Q2. subst. contradiction N. reflexivity.
Qed.

(** A child that has changed its size keeps its old place, however often the
    container is drawn and whatever other changes the children undergo, as long
    as nobody tells the container and it is drawn at the same place. *)
Theorem C58_child_change_refuted : forall c before r v (more : list (config -> config)) n,
  always_told (before ++ [Ask r v]) ->
  fst (placements (run (start c) (before ++ [Ask r v] ++ map Kid more ++ repeat (Ask r v) n)) r v) = lay (now c before) r v /\
  now c (before ++ [Ask r v] ++ map Kid more ++ repeat (Ask r v) n) = fold_left (fun c f => f c) more (now c before).
Proof.
  intros c before r v more n H. split.
  - assert (K : h_cache config (run (start c) (before ++ [Ask r v] ++ map Kid more ++ repeat (Ask r v) n)) = Some (r, v, lay (now c before) r v)).
    { rewrite !run_app. set (s0 := run (start c) before).
      assert (K0 : h_cache config (run s0 [Ask r v]) = Some (r, v, lay (now c before) r v)).
      { pose proof (C58_fresh c before r v H) as F. fold s0 in F.
        change (run s0 [Ask r v]) with (snd (placements s0 r v)).
        unfold Cached_Model.placements in *. destruct (h_cache config s0) as [[[r0 v0] l0] | ] eqn:E.
        - destruct (area_eqb r0 r && view_eqb v0 v) eqn:Q; cbn in *; [ | rewrite F; reflexivity].
          apply andb_true_iff in Q. destruct Q as [Q1 Q2]. apply area_eqb_eq in Q1. apply view_eqb_eq in Q2. subst. exact E.
        - cbn in *. rewrite F. reflexivity. }
      assert (K1 : h_cache config (run (run s0 [Ask r v]) (map Kid more)) = Some (r, v, lay (now c before) r v)).
      { revert K0. generalize (run s0 [Ask r v]). induction more as [ | f more IH]; intros s K; cbn; auto. apply IH. exact K. }
      revert K1. generalize (run (run s0 [Ask r v]) (map Kid more)). induction n as [ | n IH]; intros s K; cbn [repeat]; auto.
      apply IH. change (step config lay s (Ask r v)) with (snd (placements s r v)). unfold Cached_Model.placements. rewrite K.
      replace (area_eqb r r) with true by (symmetry; apply area_eqb_eq; reflexivity).
      replace (view_eqb v v) with true by (symmetry; apply view_eqb_eq; reflexivity). exact K. }
    unfold Cached_Model.placements. rewrite K.
    replace (area_eqb r r) with true by (symmetry; apply area_eqb_eq; reflexivity).
    replace (view_eqb v v) with true by (symmetry; apply view_eqb_eq; reflexivity). reflexivity.
  - rewrite !now_app. generalize (now c before). intros c'. cbn [now Cached_Spec.now fold_left].
    assert (R : forall m (d : config), now d (repeat (Ask r v) m) = d) by (induction m as [ | m IHm]; intros d; [reflexivity | apply IHm]).
    rewrite R. revert c'. induction more as [ | f more IH]; intros c'; cbn; auto. apply IH.
Qed.
End C.
Print Assumptions C58_fresh.
Print Assumptions C58_resized.
Print Assumptions C58_child_change_refuted.

(** Two lines one below the other, the height of the first being the configuration. *)
Definition two_lines (h : Z) (r : area) (v : view) : list placement :=
  [(0%nat, Area (a_x r) (a_y r) (a_w r) h); (1%nat, Area (a_x r) (a_y r + h) (a_w r) 1)].
Example C58_ex :
  let r := Area 0 0 10 5 in let v := View 80 24 in
  always_told Z ([Ask r v; Kid (fun _ => 3%Z); Own (fun h => h); Ask r v] ++ [Ask r v]) /\
  fst (placements Z two_lines (run Z two_lines (start Z 1%Z) [Ask r v; Kid (fun _ => 3%Z); Own (fun h => h)]) r v) = two_lines 3 r v /\
  fst (placements Z two_lines (run Z two_lines (start Z 1%Z) [Ask r v; Kid (fun _ => 3%Z)]) r v) = two_lines 1 r v /\
  two_lines 1 r v <> two_lines 3 r v.
Proof.
  cbv zeta. split; [ | split; [reflexivity | split; [reflexivity | discriminate]]].
  intros before r v after E.
  destruct before as [ | a before]; [reflexivity | ]. cbn in E. injection E as <- E.
  destruct before as [ | a before]; [reflexivity | ]. cbn in E. injection E as <- E.
  destruct before as [ | a before]; [discriminate | ]. cbn in E. injection E as <- E.
  destruct before as [ | a before]; [reflexivity | ]. cbn in E. injection E as <- E.
  destruct before as [ | a before]; [reflexivity | ]. cbn in E. injection E as <- E.
  destruct before; discriminate.
Qed.
