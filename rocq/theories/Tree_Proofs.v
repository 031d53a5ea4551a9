(** Lemmas about the widget tree. *)
From Coq Require Import ZArith List Bool Arith Lia.
From Verif Require Import Text_Model Css_Proofs Tree_Model Tree_Spec.
Import ListNotations.
Open Scope nat_scope.

Section Induction.
Variable P : widget -> Prop.
Hypothesis HL : forall d, P (Leaf d).
Hypothesis HB : forall d ks, Forall P ks -> P (Box d ks).
Fixpoint widget_ind' (w : widget) : P w :=
  match w with
  | Leaf d => HL d
  | Box d ks => HB d ks ((fix go l : Forall P l := match l with [] => Forall_nil P | k :: r => Forall_cons k (widget_ind' k) (go r) end) ks)
  end.
End Induction.

(** ** Children lists *)
Fixpoint kids_walk (keep : widget -> bool) (i : nat) (l : list widget) : list (list nat * widget) :=
  match l with
  | [] => []
  | k :: r => (if keep k then map (fun q => (i :: fst q, snd q)) (walk keep k) else []) ++ kids_walk keep (S i) r
  end.
Lemma walk_box : forall keep d ks, walk keep (Box d ks) = ([], Box d ks) :: kids_walk keep 0 ks.
Proof.
  intros. cbn [walk]. f_equal. generalize 0. induction ks as [|k r IH]; intros i; auto. cbn [kids_walk]. f_equal. apply IH.
Qed.

(** Focusable widgets below children, with paths. *)
Definition items (keep : widget -> bool) (w : widget) := filter (fun q => is_focusable (snd q)) (walk keep w).
Definition kid_items (keep : widget -> bool) (i : nat) (l : list widget) := filter (fun q => is_focusable (snd q)) (kids_walk keep i l).
Lemma items_box : forall keep d ks, items keep (Box d ks) = kid_items keep 0 ks.
Proof. intros. unfold items. rewrite walk_box. reflexivity. Qed.
Lemma filter_map : forall (A B : Type) (f : A -> B) (p : B -> bool) l, filter p (map f l) = map f (filter (fun x => p (f x)) l).
Proof. induction l as [|x l IH]; simpl; auto. destruct (p (f x)); simpl; rewrite IH; auto. Qed.
Lemma kid_items_cons : forall keep i k r, kid_items keep i (k :: r)
  = (if keep k then map (fun q => (i :: fst q, snd q)) (items keep k) else []) ++ kid_items keep (S i) r.
Proof.
  intros. unfold kid_items. cbn [kids_walk]. rewrite filter_app. f_equal. destruct (keep k); auto. rewrite filter_map. reflexivity.
Qed.
Lemma kid_items_shift : forall keep l i q w, In (q, w) (kid_items keep i l) -> exists j p, q = (i + j) :: p.
Proof.
  induction l as [|k r IH]; intros i q w H; [easy|]. rewrite kid_items_cons in H. apply in_app_or in H. destruct H as [H|H].
  - destruct (keep k); [|easy]. apply in_map_iff in H. destruct H as ([q' w'] & E & _). inversion E; subst. exists 0. eexists. f_equal. lia.
  - apply IH in H. destruct H as (j & p & ->). exists (S j), p. f_equal. lia.
Qed.

(** ** Counting *)
Lemma list_sum_cons : forall x l, list_sum (x :: l) = x + list_sum l. Proof. reflexivity. Qed.
Lemma count_items : forall w, count_focusable w = length (items shown w).
Proof.
  induction w as [d|d ks IH] using widget_ind'.
  - unfold items. cbn. destruct (w_can d); reflexivity.
  - rewrite items_box. cbn [count_focusable].
    assert (G : forall i, list_sum (map (fun k => if shown k then count_focusable k else 0) ks) = length (kid_items shown i ks)); [|apply G].
    induction IH as [|k r Hk _ IHr]; intros i; [reflexivity|].
    rewrite kid_items_cons, app_length. cbn [map]. rewrite list_sum_cons, (IHr (S i)). f_equal.
    destruct (shown k); auto. rewrite map_length. exact Hk.
Qed.
Lemma count_order : forall w, count_focusable w = length (focus_order w).
Proof. intros. unfold focus_order, focus_items. rewrite map_length. apply count_items. Qed.

(** ** focus_nth *)
Fixpoint upd_kids (i : nat) (r : list nat) (f : wdata -> wdata) (l : list widget) : list widget :=
  match l, i with
  | [], _ => []
  | k :: rest, O => update_at r f k :: rest
  | k :: rest, S j => k :: upd_kids j r f rest
  end.
Lemma update_box : forall i r f d ks, update_at (i :: r) f (Box d ks) = Box d (upd_kids i r f ks).
Proof. intros. cbn [update_at]. f_equal. revert i. induction ks as [|k ks IH]; intros [|i]; auto. cbn [upd_kids]. f_equal. apply IH. Qed.
Fixpoint focus_kids (n : nat) (l : list widget) : list widget * bool :=
  match l with
  | [] => ([], false)
  | k :: r =>
      if negb (shown k) then let '(r', b) := focus_kids n r in (k :: r', b)
      else if n <? count_focusable k then let '(k', b) := focus_nth n k in (k' :: r, b)
      else let '(r', b) := focus_kids (n - count_focusable k) r in (k :: r', b)
  end.
Lemma focus_box : forall n d ks, focus_nth n (Box d ks) = let '(ks', b) := focus_kids n ks in (Box d ks', b).
Proof.
  intros. cbn [focus_nth].
  match goal with |- (let '(_, _) := ?g n ks in _) = _ => assert (E : g n ks = focus_kids n ks) end.
  { reflexivity. }
  rewrite E. reflexivity.
Qed.

Lemma nth_app : forall (A : Type) (l m : list A) n, nth_error (l ++ m) n = if n <? length l then nth_error l n else nth_error m (n - length l).
Proof.
  intros. destruct (Nat.ltb_spec n (length l)). apply nth_error_app1; auto. apply nth_error_app2; auto.
Qed.

Lemma focus_nth_spec : forall w n, focus_nth n w = match nth_error (items shown w) n with
  | Some q => (update_at (fst q) (set_focused true) w, true) | None => (w, false) end.
Proof.
  induction w as [d|d ks IH] using widget_ind'; intros n.
  - unfold items. cbn. destruct (w_can d); simpl; destruct n as [|[|n]]; reflexivity.
  - rewrite focus_box, items_box.
    assert (G : forall l i n, Forall (fun w => forall n, focus_nth n w = match nth_error (items shown w) n with
        | Some q => (update_at (fst q) (set_focused true) w, true) | None => (w, false) end) l ->
      match nth_error (kid_items shown i l) n with
      | Some q => exists j p, fst q = (i + j) :: p /\ focus_kids n l = (upd_kids j p (set_focused true) l, true)
      | None => focus_kids n l = (l, false) end).
    { clear. induction l as [|k r IH]; intros i n F.
      - cbn [kid_items kids_walk filter focus_kids]. destruct n; reflexivity.
      - inversion F as [|? ? Hk Hr]; subst. rewrite kid_items_cons, nth_app. cbn [focus_kids].
        destruct (shown k) eqn:S; cbn [negb].
        + rewrite map_length, <- count_items. destruct (n <? count_focusable k) eqn:L.
          * rewrite nth_error_map. rewrite Hk. destruct (nth_error (items shown k) n) as [[q w]|] eqn:E; cbn [option_map].
            -- exists 0, q. split; [simpl; f_equal; lia|reflexivity].
            -- exfalso. apply nth_error_None in E. apply Nat.ltb_lt in L. rewrite count_items in L. lia.
          * specialize (IH (Datatypes.S i) (n - count_focusable k) Hr). destruct (nth_error (kid_items shown (Datatypes.S i) r) (n - count_focusable k)) as [q|].
            -- destruct IH as (j & p & E1 & E2). rewrite E2. exists (Datatypes.S j), p. split; [rewrite E1; f_equal; lia|reflexivity].
            -- rewrite IH. reflexivity.
        + cbn [length app]. replace (n <? 0) with false by (destruct n; auto). rewrite Nat.sub_0_r.
          specialize (IH (Datatypes.S i) n Hr). destruct (nth_error (kid_items shown (Datatypes.S i) r) n) as [q|].
          -- destruct IH as (j & p & E1 & E2). rewrite E2. exists (Datatypes.S j), p. split; [rewrite E1; f_equal; lia|reflexivity].
          -- rewrite IH. reflexivity. }
    specialize (G ks 0 n IH). destruct (nth_error (kid_items shown 0 ks) n) as [q|].
    + destruct G as (j & p & E1 & E2). rewrite E2, E1. cbn [Nat.add]. rewrite update_box. reflexivity.
    + rewrite G. reflexivity.
Qed.

(** ** find_path *)
Fixpoint path_kids (i remaining : nat) (l : list widget) : list nat + nat :=
  match l with
  | [] => inr remaining
  | k :: r => match find_path k remaining with inl p => inl (i :: p) | inr rem => path_kids (S i) rem r end
  end.
Lemma path_box : forall d ks n, find_path (Box d ks) n = path_kids 0 n ks.
Proof.
  reflexivity.
Qed.
Lemma find_path_spec : forall w n, find_path w n = match nth_error (items everything w) n with
  | Some q => inl (fst q) | None => inr (n - length (items everything w)) end.
Proof.
  induction w as [d|d ks IH] using widget_ind'; intros n.
  - unfold items. cbn. destruct (w_can d); simpl; destruct n as [|[|n]]; try reflexivity; cbn; f_equal; lia.
  - rewrite path_box, items_box. generalize 0. revert n. induction IH as [|k r Hk _ IHr]; intros n i.
    + cbn [path_kids kid_items kids_walk filter length]. destruct n; reflexivity.
    + rewrite kid_items_cons. cbn [everything path_kids]. rewrite Hk, nth_app, map_length, app_length, map_length.
      destruct (Nat.ltb_spec n (length (items everything k))) as [L|L].
      * rewrite nth_error_map. destruct (nth_error (items everything k) n) as [q|] eqn:E; [reflexivity|].
        exfalso. apply nth_error_None in E. lia.
      * rewrite (proj2 (nth_error_None _ _) L). rewrite IHr. destruct (nth_error (kid_items everything (S i) r) _); [auto|]. f_equal. lia.
Qed.

(** ** Paths of the walk *)
Lemma kids_walk_in : forall keep l i q, In q (kids_walk keep i l) ->
  exists j k q', nth_error l j = Some k /\ keep k = true /\ In q' (walk keep k) /\ q = ((i + j) :: fst q', snd q').
Proof.
  induction l as [|k r IH]; intros i q H; [easy|]. cbn [kids_walk] in H. apply in_app_or in H. destruct H as [H|H].
  - destruct (keep k) eqn:E; [|easy]. apply in_map_iff in H. destruct H as (q' & <- & Hq'). exists 0, k, q'. rewrite Nat.add_0_r. auto.
  - apply IH in H. destruct H as (j & k' & q' & H1 & H2 & H3 & ->). exists (S j), k', q'. split; auto. split; auto. split; auto.
    do 2 f_equal. lia.
Qed.
Lemma kids_walk_intro : forall keep l i j k q', nth_error l j = Some k -> keep k = true -> In q' (walk keep k) ->
  In ((i + j) :: fst q', snd q') (kids_walk keep i l).
Proof.
  induction l as [|k0 r IH]; intros i [|j] k q' H1 H2 H3; try discriminate; simpl in H1; cbn [kids_walk]; apply in_or_app.
  - inversion H1; subst. rewrite H2. left. rewrite Nat.add_0_r. apply (in_map (fun q => (i :: fst q, snd q))). auto.
  - right. replace (i + S j) with (S i + j) by lia. eapply IH; eauto.
Qed.
Lemma walk_follow : forall keep w q, In q (walk keep w) -> follow w (fst q) = Some (snd q).
Proof.
  induction w as [d|d ks IH] using widget_ind'; intros q H.
  - destruct H as [<-|[]]. reflexivity.
  - rewrite walk_box in H. destruct H as [<-|H]; [reflexivity|]. apply kids_walk_in in H. destruct H as (j & k & q' & H1 & H2 & H3 & ->).
    cbn [fst snd follow get_child Nat.add]. rewrite H1. rewrite Forall_forall in IH. apply IH; auto. eapply nth_error_In; eauto.
Qed.
Lemma walk_everything : forall w p k, follow w p = Some k -> In (p, k) (walk everything w).
Proof.
  induction w as [d|d ks IH] using widget_ind'; intros p k H.
  - destruct p as [|i p]; [|discriminate]. inversion H; subst. left; auto.
  - rewrite walk_box. destruct p as [|i p]. inversion H; subst. left; auto. right. cbn [follow get_child] in H.
    destruct (nth_error ks i) as [c|] eqn:E; [|discriminate]. rewrite Forall_forall in IH.
    apply (kids_walk_intro everything ks 0 i c (p, k)); auto. apply IH; auto. eapply nth_error_In; eauto.
Qed.
Lemma walk_shown_sub : forall w q, In q (walk shown w) -> In q (walk everything w).
Proof. intros w [p k] H. apply walk_everything. apply (walk_follow _ _ _ H). Qed.
Lemma kids_walk_NoDup : forall keep l i, Forall (fun k => NoDup (map fst (walk keep k))) l -> NoDup (map fst (kids_walk keep i l)).
Proof.
  induction l as [|k r IH]; intros i F; [constructor|]. inversion F as [|? ? Hk Hr]; subst. cbn [kids_walk]. rewrite map_app.
  assert (D : forall x, In x (map fst (kids_walk keep (S i) r)) -> exists j p, x = j :: p /\ i < j).
  { intros x Hx. apply in_map_iff in Hx. destruct Hx as (q & <- & Hq). apply kids_walk_in in Hq. destruct Hq as (j & k' & q' & _ & _ & _ & ->).
    exists (S i + j), (fst q'). split; auto. lia. }
  destruct (keep k); [|apply IH; auto]. rewrite map_map. cbn [fst].
  assert (N : NoDup (map (fun x => i :: fst x) (walk keep k))).
  { rewrite <- (map_map fst (cons i)). apply FinFun.Injective_map_NoDup; auto. intros a b E. congruence. }
  revert N. generalize (walk keep k). induction l as [|x l IHl]; intros N; cbn [map app]; [apply IH; auto|].
  cbn [map] in N. inversion N; subst. constructor; auto. intros H. apply in_app_or in H. destruct H; auto.
  apply D in H. destruct H as (j & p & E & L). injection E as -> _. lia.
Qed.
Lemma walk_NoDup : forall keep w, NoDup (map fst (walk keep w)).
Proof.
  intros keep. induction w as [d|d ks IH] using widget_ind'.
  - cbn. constructor; [easy|constructor].
  - rewrite walk_box. cbn [map fst]. constructor; [|apply kids_walk_NoDup; auto].
    intros H. apply in_map_iff in H. destruct H as (q & E & Hq). apply kids_walk_in in Hq. destruct Hq as (j & k & q' & _ & _ & _ & ->). discriminate.
Qed.
Lemma NoDup_map_filter : forall (A B : Type) (g : A -> B) f l, NoDup (map g l) -> NoDup (map g (filter f l)).
Proof.
  induction l as [|x l IH]; simpl; intros N; auto. inversion N; subst. destruct (f x); auto. simpl. constructor; auto.
  intros H. apply H1. apply in_map_iff in H. destruct H as (y & E & Hy). apply filter_In in Hy. rewrite <- E. apply in_map. apply Hy.
Qed.
Lemma order_NoDup : forall w, NoDup (focus_order w).
Proof. intros. unfold focus_order, focus_items. apply NoDup_map_filter. apply walk_NoDup. Qed.

(** ** The shape of a tree *)
Lemma unfocused_shown : forall w, shown (unfocused w) = shown w. Proof. destruct w; reflexivity. Qed.
Lemma unfocused_focusable : forall w, is_focusable (unfocused w) = is_focusable w. Proof. destruct w; reflexivity. Qed.
Lemma walk_unfocused : forall keep, (forall w, keep (unfocused w) = keep w) ->
  forall w, walk keep (unfocused w) = map (fun q => (fst q, unfocused (snd q))) (walk keep w).
Proof.
  intros keep HK. induction w as [d|d ks IH] using widget_ind'; [reflexivity|].
  cbn [unfocused]. rewrite !walk_box. cbn [map fst snd unfocused]. f_equal. generalize 0. induction IH as [|k r Hk _ IHr]; intros i; [reflexivity|].
  cbn [map kids_walk]. rewrite map_app, IHr, HK. f_equal. destruct (keep k); auto. rewrite Hk, !map_map. reflexivity.
Qed.
Lemma items_unfocused : forall keep, (forall w, keep (unfocused w) = keep w) ->
  forall w, map fst (items keep (unfocused w)) = map fst (items keep w).
Proof.
  intros. unfold items. rewrite walk_unfocused by auto. rewrite filter_map, map_map. cbn [fst snd].
  erewrite filter_ext; [reflexivity|]. intros [p k]. apply unfocused_focusable.
Qed.
Lemma order_unfocused : forall w, focus_order (unfocused w) = focus_order w.
Proof. intros. apply items_unfocused. apply unfocused_shown. Qed.
Definition all_order (w : widget) : list (list nat) := map fst (items everything w).
Lemma all_unfocused : forall w, all_order (unfocused w) = all_order w.
Proof. intros. apply items_unfocused. reflexivity. Qed.
Lemma visible_unfocused : forall w, visible_paths (unfocused w) = visible_paths w.
Proof. intros. unfold visible_paths. rewrite walk_unfocused by apply unfocused_shown. rewrite map_map. reflexivity. Qed.

Lemma clear_shape : forall w, unfocused (clear_focus w) = unfocused w.
Proof.
  induction w as [d|d ks IH] using widget_ind'; [reflexivity|]. cbn [clear_focus unfocused]. f_equal. rewrite map_map.
  apply map_ext_in. intros k Hk. rewrite Forall_forall in IH. destruct (shown k); auto.
Qed.
Lemma update_shape : forall b p w, unfocused (update_at p (set_focused b) w) = unfocused w.
Proof.
  induction p as [|i p IH]; intros [d|d ks]; try reflexivity. rewrite update_box. cbn [unfocused]. f_equal.
  revert i. induction ks as [|k r IHr]; intros [|i]; cbn [upd_kids map]; auto; f_equal; auto.
Qed.

(** ** Reading after writing *)
Lemma upd_kids_nth : forall l i r f j, nth_error (upd_kids i r f l) j
  = if i =? j then option_map (update_at r f) (nth_error l j) else nth_error l j.
Proof.
  induction l as [|k l IH]; intros i r f j.
  - destruct (i =? j), i, j; reflexivity.
  - destruct i as [|i], j as [|j]; cbn [upd_kids nth_error]; try reflexivity. rewrite IH. reflexivity.
Qed.
Lemma follow_update_other : forall q f w p, p <> q ->
  match follow w p with
  | Some k => exists k', follow (update_at q f w) p = Some k' /\ data k' = data k /\ (forall d, k' = Leaf d <-> k = Leaf d)
  | None => follow (update_at q f w) p = None end.
Proof.
  induction q as [|i q IH]; intros f w p H.
  - destruct p as [|j p]; [congruence|]. destruct w as [d|d ks]; cbn; auto.
    destruct (nth_error ks j) as [k|]; auto. destruct (follow k p) as [k'|]; auto. exists k'. split; auto. split; auto. tauto.
  - destruct w as [d|d ks]. { cbn [update_at]. destruct (follow (Leaf d) p) as [k|] eqn:E; auto. exists k. split; auto. split; auto. tauto. }
    rewrite update_box. destruct p as [|j p].
    + cbn. eexists. split; [reflexivity|]. split; auto. intros d'. split; discriminate.
    + cbn [follow get_child]. rewrite upd_kids_nth. destruct (Nat.eqb_spec i j) as [->|NE].
      * destruct (nth_error ks j) as [k|]; cbn [option_map]; auto. apply IH. congruence.
      * destruct (nth_error ks j) as [k|]; auto. destruct (follow k p) as [k'|]; auto. exists k'. split; auto. split; auto. tauto.
Qed.
Lemma follow_update_same : forall q f w, follow (update_at q f w) q = option_map (map_data f) (follow w q).
Proof.
  induction q as [|i q IH]; intros f w; [reflexivity|]. destruct w as [d|d ks]; [reflexivity|]. rewrite update_box.
  cbn [follow get_child]. rewrite upd_kids_nth, Nat.eqb_refl. destruct (nth_error ks i) as [k|]; cbn [option_map]; auto.
Qed.
Lemma has_focus_update : forall q w p d, follow w q = Some (Leaf d) ->
  (has_focus (update_at q (set_focused true) w) p <-> p = q \/ has_focus w p).
Proof.
  intros q w p d E. destruct (list_eq_dec Nat.eq_dec p q) as [->|NE].
  - split; auto. intros _. exists (set_focused true d). rewrite follow_update_same, E. auto.
  - pose proof (follow_update_other q (set_focused true) w p NE) as F. unfold has_focus. split.
    + intros (d' & H & Hf). right. destruct (follow w p) as [k|]; [|congruence]. destruct F as (k' & F1 & F2 & F3).
      rewrite F1 in H. inversion H; subst k'. exists d'. split; auto. f_equal. apply F3. auto.
    + intros [|(d' & H & Hf)]; [contradiction|]. rewrite H in F. destruct F as (k' & F1 & F2 & F3). exists d'. split; auto. rewrite F1. f_equal.
      apply F3. auto.
Qed.

Lemma clear_focus_none : forall w p, In p (visible_paths w) -> ~ has_focus (clear_focus w) p.
Proof.
  induction w as [d|d ks IH] using widget_ind'; intros p H (d' & E & F).
  - destruct H as [<-|[]]. cbn in E. inversion E; subst. discriminate.
  - unfold visible_paths in H. rewrite walk_box in H. destruct H as [<-|H]; [discriminate|]. apply in_map_iff in H.
    destruct H as (q & <- & Hq). apply kids_walk_in in Hq. destruct Hq as (j & k & q' & H1 & H2 & H3 & ->). cbn [fst Nat.add] in E.
    cbn [clear_focus follow get_child] in E. rewrite nth_error_map, H1 in E. cbn [option_map] in E. rewrite H2 in E.
    rewrite Forall_forall in IH. apply (IH k (nth_error_In _ _ H1) (fst q')). { apply in_map; auto. } exists d'. auto.
Qed.
Lemma item_follow : forall keep w q, In q (items keep w) -> exists d, follow w (fst q) = Some (Leaf d) /\ snd q = Leaf d /\ w_can d = true.
Proof.
  intros keep w q H. apply filter_In in H. destruct H as [H1 H2]. apply walk_follow in H1. destruct (snd q) as [d|d ks]; [|discriminate]. eauto.
Qed.
Lemma clear_follow_leaf : forall w q d, follow w q = Some (Leaf d) -> exists d', follow (clear_focus w) q = Some (Leaf d').
Proof.
  induction w as [d0|d0 ks IH] using widget_ind'; intros q d H.
  - destruct q as [|i q]; [|discriminate]. cbn. eauto.
  - destruct q as [|i q]; [discriminate|]. cbn [clear_focus follow get_child] in *. rewrite nth_error_map.
    destruct (nth_error ks i) as [k|] eqn:E; [|discriminate]. cbn [option_map]. rewrite Forall_forall in IH.
    destruct (shown k); [|eauto]. eapply IH; eauto. eapply nth_error_In; eauto.
Qed.

(** ** Setting the focus *)
Lemma update_focus_root : forall i t, t_root (update_focus i t) = t_root t.
Proof. intros. unfold update_focus. destruct (_ && _); reflexivity. Qed.
Lemma update_focus_cur : forall i t, t_cur (update_focus i t) = i.
Proof. intros. unfold update_focus. destruct (i =? t_cur t) eqn:E; simpl; auto. apply Nat.eqb_eq in E. destruct (t_path t); simpl; auto. Qed.

Lemma set_focus_spec : forall i t p, nth_error (focus_order (t_root t)) i = Some p ->
  exists t', set_focus_index i t = (t', true) /\
    t_cur t' = i /\ unfocused (t_root t') = unfocused (t_root t) /\ only_focus (t_root t') p /\
    t_path t' = t_path (update_focus i (Tree (t_root t') (t_path t) (t_cur t))).
Proof.
  intros i t p H. unfold set_focus_index. rewrite count_order.
  assert (L : i < length (focus_order (t_root t))) by (apply nth_error_Some; congruence).
  destruct (Nat.eqb_spec (length (focus_order (t_root t))) 0); [lia|]. destruct (Nat.leb_spec (length (focus_order (t_root t))) i); [lia|].
  rewrite focus_nth_spec.
  assert (O : focus_order (clear_focus (t_root t)) = focus_order (t_root t)).
  { rewrite <- order_unfocused, clear_shape, order_unfocused. reflexivity. }
  assert (HN : exists q, nth_error (items shown (clear_focus (t_root t))) i = Some q /\ fst q = p).
  { rewrite <- O in H. unfold focus_order, focus_items in H. rewrite nth_error_map in H. fold (items shown (clear_focus (t_root t))) in H.
    destruct (nth_error (items shown (clear_focus (t_root t))) i) as [q|]; [|discriminate]. inversion H; subst. eauto. }
  destruct HN as (q & HQ & <-). rewrite HQ. eexists. split; [reflexivity|].
  pose proof (item_follow _ _ _ (nth_error_In _ _ HQ)) as (d & HF & _ & _).
  rewrite update_focus_cur, update_focus_root. cbn [t_root].
  assert (SH : unfocused (update_at (fst q) (set_focused true) (clear_focus (t_root t))) = unfocused (t_root t)).
  { rewrite update_shape, clear_shape. reflexivity. }
  split; [reflexivity|]. split; [exact SH|]. split; [|reflexivity].
  intros r Hr. rewrite (has_focus_update _ _ _ _ HF). split; auto. intros [->|K]; auto. exfalso.
  eapply clear_focus_none; [|exact K]. rewrite <- visible_unfocused, <- SH, visible_unfocused. exact Hr.
Qed.
Lemma set_focus_false : forall i t, nth_error (focus_order (t_root t)) i = None -> focus_order (t_root t) <> [] -> set_focus_index i t = (t, false).
Proof.
  intros i t H NE. unfold set_focus_index. rewrite count_order. apply nth_error_None in H.
  destruct (focus_order (t_root t)) as [|p l]; [congruence|]. cbn [length] in *.
  destruct (Nat.eqb_spec (S (length l)) 0); [lia|]. destruct (Nat.leb_spec (S (length l)) i); [auto|lia].
Qed.

(** ** Focus by id *)
Fixpoint index_kids (id : text) (index : nat) (l : list widget) : nat + nat :=
  match l with
  | [] => inr index
  | k :: r => match find_index_by_id id k index with inl f => inl f | inr i => index_kids id i r end
  end.
Lemma index_box : forall id d ks n, shown (Box d ks) = true -> find_index_by_id id (Box d ks) n = index_kids id n ks.
Proof.
  intros id d ks n H. cbn [find_index_by_id]. rewrite H. cbn [negb]. revert n. induction ks as [|k r IH]; intros n; auto. cbn [index_kids].
  destruct (find_index_by_id id k n); auto.
Qed.
Fixpoint first_with {A} (f : A -> bool) (l : list A) (n : nat) : nat + nat :=
  match l with
  | [] => inr n
  | x :: r => if f x then inl n else first_with f r (S n)
  end.
Lemma first_with_app : forall (A : Type) (f : A -> bool) l m n, first_with f (l ++ m) n
  = match first_with f l n with inl k => inl k | inr k => first_with f m k end.
Proof. induction l as [|x l IH]; intros; simpl; auto. destruct (f x); auto. Qed.
Lemma first_with_map : forall (A B : Type) (f : B -> bool) (g : A -> B) l n, first_with f (map g l) n = first_with (fun x => f (g x)) l n.
Proof. induction l as [|x l IH]; intros; simpl; auto. destruct (f (g x)); auto. Qed.
Lemma find_index_spec : forall id w n, find_index_by_id id w n
  = if shown w then first_with (fun q => has_id id (data (snd q))) (items shown w) n else inr n.
Proof.
  intros id. induction w as [d|d ks IH] using widget_ind'; intros n.
  - cbn [find_index_by_id]. unfold items, shown. cbn. destruct (w_shown d), (w_can d); reflexivity.
  - destruct (shown (Box d ks)) eqn:S. 2:{ cbn [find_index_by_id]. rewrite S. reflexivity. }
    rewrite index_box by auto. rewrite items_box. clear S. generalize 0. revert n. induction IH as [|k r Hk _ IHr]; intros n i; [reflexivity|].
    cbn [index_kids]. rewrite kid_items_cons, first_with_app, Hk. destruct (shown k).
    + rewrite first_with_map. cbn [snd]. destruct (first_with _ (items shown k) n); auto.
    + cbn [first_with]. auto.
Qed.
Lemma first_with_spec : forall (A : Type) (f : A -> bool) l n,
  match first_with f l n with
  | inl k => exists x, n <= k /\ nth_error l (k - n) = Some x /\ f x = true /\ (forall j y, j < k - n -> nth_error l j = Some y -> f y = false)
  | inr k => k = n + length l /\ forall y, In y l -> f y = false end.
Proof.
  induction l as [|x l IH]; intros n; cbn [first_with].
  - split; [simpl; lia|easy].
  - destruct (f x) eqn:E.
    + exists x. rewrite Nat.sub_diag. split; [lia|]. split; auto. split; auto. intros; lia.
    + specialize (IH (S n)). destruct (first_with f l (S n)) as [k|k].
      * destruct IH as (y & H1 & H2 & H3 & H4). exists y. split; [lia|]. replace (k - n) with (S (k - S n)) by lia. split; auto. split; auto.
        intros [|j] z L Hz; simpl in Hz. inversion Hz; subst; auto. eapply H4; [|eauto]. lia.
      * destruct IH as [-> H]. split; [simpl; lia|]. intros y [<-|Hy]; auto.
Qed.

(** ** When nothing is hidden *)
Lemma walk_nothing_hidden : forall w, nothing_hidden w -> walk shown w = walk everything w.
Proof.
  induction w as [d|d ks IH] using widget_ind'; intros H; [reflexivity|]. rewrite !walk_box. f_equal.
  assert (K : Forall (fun k => shown k = true /\ nothing_hidden k) ks).
  { rewrite Forall_forall. intros k Hk. apply In_nth_error in Hk. destruct Hk as (j & Hj). split.
    - apply (H ([j], k)). rewrite walk_box. right. apply (kids_walk_intro everything ks 0 j k ([], k)); auto. destruct k; left; reflexivity.
    - intros q Hq. apply (H (j :: fst q, snd q)). rewrite walk_box. right. apply (kids_walk_intro everything ks 0 j k q); auto. }
  clear H. generalize 0. induction IH as [|k r Hk _ IHr]; intros i; auto. inversion K as [|? ? [K1 K2] K3]; subst. cbn [kids_walk everything].
  rewrite K1, (IHr K3), Hk by auto. reflexivity.
Qed.
Lemma all_is_order : forall w, nothing_hidden w -> all_order w = focus_order w.
Proof. intros w H. unfold all_order, focus_order, focus_items, items. rewrite walk_nothing_hidden by auto. reflexivity. Qed.
Lemma hidden_unfocused : forall w w', unfocused w = unfocused w' -> nothing_hidden w -> nothing_hidden w'.
Proof.
  intros w w' E H q Hq. apply (in_map (fun q => (fst q, unfocused (snd q)))) in Hq. rewrite <- walk_unfocused in Hq by reflexivity.
  rewrite <- E in Hq. rewrite walk_unfocused in Hq by reflexivity. apply in_map_iff in Hq. destruct Hq as (r & Er & Hr). apply H in Hr.
  inversion Er. rewrite <- unfocused_shown, <- H2, unfocused_shown. exact Hr.
Qed.

(** ** Entries *)
Fixpoint kentries (i : nat) (l : list widget) : list (list nat * wdata) :=
  match l with
  | [] => []
  | k :: r => map (fun e => (i :: fst e, snd e)) (entries k) ++ kentries (S i) r
  end.
Lemma entries_box : forall d ks, entries (Box d ks) = ([], d) :: kentries 0 ks.
Proof.
  intros. unfold entries. rewrite walk_box. cbn [map fst snd data]. f_equal. generalize 0. induction ks as [|k r IH]; intros i; auto.
  cbn [kids_walk everything kentries]. rewrite map_app, IH. f_equal. unfold entries. rewrite !map_map. reflexivity.
Qed.
Lemma entries_leaf : forall d, entries (Leaf d) = [([], d)]. Proof. reflexivity. Qed.
Lemma kentries_head : forall l i e, In e (kentries i l) -> exists j p, fst e = j :: p /\ i <= j.
Proof.
  induction l as [|k r IH]; intros i e H; [easy|]. cbn [kentries] in H. apply in_app_or in H. destruct H as [H|H].
  - apply in_map_iff in H. destruct H as (e' & <- & _). cbn. eauto.
  - apply IH in H. destruct H as (j & p & H1 & H2). exists j, p. split; auto. lia.
Qed.
Lemma change_at_out : forall p f l, (forall e, In e l -> fst e <> p) -> change_at p f l = l.
Proof.
  intros p f l H. unfold change_at. rewrite <- (map_id l) at 2. apply map_ext_in. intros e He. destruct (list_eq_dec _ _ _); auto.
  exfalso. eapply H; eauto.
Qed.
Lemma change_at_cons : forall i p f l, change_at (i :: p) f (map (fun e => (i :: fst e, snd e)) l)
  = map (fun e => (i :: fst e, snd e)) (change_at p f l).
Proof.
  intros. unfold change_at. rewrite !map_map. apply map_ext. intros e. cbn [fst snd].
  destruct (list_eq_dec Nat.eq_dec (i :: fst e) (i :: p)), (list_eq_dec Nat.eq_dec (fst e) p); auto; congruence.
Qed.
Lemma change_at_app : forall p f a b, change_at p f (a ++ b) = change_at p f a ++ change_at p f b.
Proof. intros. apply map_app. Qed.
Lemma entries_update : forall p f w, entries (update_at p f w) = change_at p f (entries w).
Proof.
  induction p as [|i p IH]; intros f w.
  - destruct w as [d|d ks]; [reflexivity|]. cbn [update_at map_data]. rewrite !entries_box. unfold change_at. cbn [map fst snd]. f_equal.
    symmetry. apply (change_at_out [] f (kentries 0 ks)). intros e He. apply kentries_head in He. destruct He as (j & q & -> & _). discriminate.
  - destruct w as [d|d ks]; [reflexivity|]. rewrite update_box, !entries_box.
    unfold change_at. cbn [map fst]. f_equal. fold (change_at (i :: p) f (kentries 0 ks)).
    assert (G : forall l a j, kentries a (upd_kids j p f l) = change_at ((a + j) :: p) f (kentries a l)).
    { clear ks. induction l as [|k r IHl]; intros a j; [destruct j; reflexivity|]. destruct j as [|j]; cbn [upd_kids kentries]; rewrite change_at_app.
      - rewrite Nat.add_0_r, IH, change_at_cons. f_equal. symmetry. apply change_at_out. intros e He E. apply kentries_head in He.
        destruct He as (j & q & E2 & L). rewrite E in E2. injection E2 as -> _. lia.
      - rewrite IHl. replace (S a + j) with (a + S j) by lia. f_equal. symmetry. apply change_at_out. intros e He E. apply in_map_iff in He.
        destruct He as (e' & <- & _). cbn in E. injection E as E _. lia. }
    apply G.
Qed.

Section Q.
Variable m : wdata -> bool.
Variable f : wdata -> wdata.
Definition kmatches (i : nat) (l : list widget) := filter (fun e : list nat * wdata => m (snd e)) (kentries i l).
Lemma matches_box : forall d ks, matches_in m (Box d ks) = (if m d then [([], d)] else []) ++ kmatches 0 ks.
Proof. intros. unfold matches_in. rewrite entries_box. cbn [filter snd]. destruct (m d); reflexivity. Qed.
Lemma kmatches_cons : forall i k r, kmatches i (k :: r) = map (fun e => (i :: fst e, snd e)) (matches_in m k) ++ kmatches (S i) r.
Proof. intros. unfold kmatches. cbn [kentries]. rewrite filter_app. f_equal. rewrite filter_map. reflexivity. Qed.

Fixpoint first_kids (l : list widget) : list widget * option wdata :=
  match l with
  | [] => ([], None)
  | k :: rest =>
      match apply_first m f k with
      | (k', Some x) => (k' :: rest, Some x)
      | (k', None) => let '(rest', r) := first_kids rest in (k' :: rest', r)
      end
  end.
Lemma first_box : forall d ks, apply_first m f (Box d ks)
  = if m d then (Box (f d) ks, Some d) else let '(ks', r) := first_kids ks in (Box d ks', r).
Proof. reflexivity. Qed.
Lemma apply_first_spec : forall w, apply_first m f w = match matches_in m w with
  | [] => (w, None) | e :: _ => (update_at (fst e) f w, Some (snd e)) end.
Proof.
  induction w as [d|d ks IH] using widget_ind'.
  - unfold matches_in. rewrite entries_leaf. cbn. destruct (m d); reflexivity.
  - rewrite first_box, matches_box. destruct (m d); [reflexivity|]. cbn [app].
    assert (G : forall i, match kmatches i ks with
      | [] => first_kids ks = (ks, None)
      | e :: _ => exists j p, fst e = (i + j) :: p /\ first_kids ks = (upd_kids j p f ks, Some (snd e)) end).
    { induction IH as [|k r Hk _ IHr]; intros i; [reflexivity|]. rewrite kmatches_cons. cbn [first_kids]. rewrite Hk.
      destruct (matches_in m k) as [|e es]; cbn [map app fst snd].
      - specialize (IHr (S i)). destruct (kmatches (S i) r) as [|e es]; [rewrite IHr; reflexivity|].
        destruct IHr as (j & p & E1 & E2). rewrite E2. exists (S j), p. split; [rewrite E1; f_equal; lia|reflexivity].
      - exists 0, (fst e). split; [f_equal; lia|reflexivity]. }
    specialize (G 0). destruct (kmatches 0 ks) as [|e es]; [rewrite G; reflexivity|].
    destruct G as (j & p & E1 & E2). rewrite E2, E1. cbn [Nat.add]. rewrite update_box. reflexivity.
Qed.

Fixpoint all_kids (l : list widget) : list widget * list wdata :=
  match l with
  | [] => ([], [])
  | k :: rest =>
      let '(k', a) := apply_all m f k in
      let '(rest', b) := all_kids rest in (k' :: rest', a ++ b)
  end.
Lemma all_box : forall d ks, apply_all m f (Box d ks)
  = let '(ks', l) := all_kids ks in (Box (if m d then f d else d) ks', (if m d then [d] else []) ++ l).
Proof. reflexivity. Qed.
Lemma apply_all_spec : forall w, entries (fst (apply_all m f w)) = change_all m f (entries w) /\
  snd (apply_all m f w) = map snd (matches_in m w).
Proof.
  induction w as [d|d ks IH] using widget_ind'.
  - unfold matches_in, change_all. cbn [apply_all fst snd data]. rewrite entries_leaf. cbn [map filter snd fst].
    destruct (m d); rewrite entries_leaf; split; reflexivity.
  - rewrite all_box, matches_box.
    assert (G : forall i, kentries i (fst (all_kids ks)) = change_all m f (kentries i ks) /\ snd (all_kids ks) = map snd (kmatches i ks)).
    { induction IH as [|k r [Hk1 Hk2] _ IHr]; intros i; [split; reflexivity|]. cbn [all_kids]. rewrite kmatches_cons.
      destruct (apply_all m f k) as [k' a]. specialize (IHr (S i)). destruct (all_kids r) as [r' b]. cbn [fst snd] in *. destruct IHr as [I1 I2].
      cbn [kentries]. split.
      - unfold change_all. rewrite map_app. fold (change_all m f (kentries (S i) r)). rewrite I1, Hk1. f_equal. unfold change_all.
        rewrite !map_map. apply map_ext. intros e. cbn [fst snd]. destruct (m (snd e)); reflexivity.
      - rewrite map_app, map_map, I2, Hk2. cbn [snd]. reflexivity. }
    specialize (G 0). destruct (all_kids ks) as [ks' l]. cbn [fst snd] in *. destruct G as [G1 G2]. split.
    + rewrite !entries_box. unfold change_all. cbn [map fst snd]. fold (change_all m f (kentries 0 ks)). rewrite G1. destruct (m d); reflexivity.
    + rewrite G2, map_app. destruct (m d); reflexivity.
Qed.

Fixpoint paths_kids (i : nat) (l : list widget) : list (list nat) :=
  match l with
  | [] => []
  | k :: r => map (cons i) (matching_paths m k) ++ paths_kids (S i) r
  end.
Lemma paths_box : forall d ks, matching_paths m (Box d ks) = (if m d then [[]] else []) ++ paths_kids 0 ks.
Proof. reflexivity. Qed.
Lemma matching_paths_spec : forall w, matching_paths m w = map fst (matches_in m w).
Proof.
  induction w as [d|d ks IH] using widget_ind'.
  - unfold matches_in. rewrite entries_leaf. cbn. destruct (m d); reflexivity.
  - rewrite paths_box, matches_box, map_app. f_equal. { destruct (m d); reflexivity. }
    generalize 0. induction IH as [|k r Hk _ IHr]; intros i; [reflexivity|]. rewrite kmatches_cons. cbn [paths_kids].
    rewrite map_app, IHr, Hk, !map_map. reflexivity.
Qed.
Lemma entry_follow : forall w e, In e (entries w) -> exists k, follow w (fst e) = Some k /\ data k = snd e.
Proof.
  intros w e H. unfold entries in H. apply in_map_iff in H. destruct H as (q & <- & Hq). apply walk_follow in Hq. cbn. eauto.
Qed.
Lemma apply_last_spec : forall w, match rev (matches_in m w) with
  | [] => apply_last m f w = (w, None)
  | e :: _ => apply_last m f w = (update_at (fst e) f w, Some (snd e)) end.
Proof.
  intros w. unfold apply_last. rewrite matching_paths_spec, <- map_rev. destruct (rev (matches_in m w)) as [|e l] eqn:E; [reflexivity|].
  cbn [map]. assert (H : In e (entries w)).
  { assert (In e (rev (matches_in m w))) by (rewrite E; left; auto). apply in_rev in H. apply filter_In in H. apply H. }
  apply entry_follow in H. destruct H as (k & -> & ->). reflexivity.
Qed.
End Q.

(** ** Bubbling *)
Section B.
Variables M St : Type.
Variable handle : list nat -> St -> envelope M -> option M * St * envelope M.
Variable root : widget.
Lemma follow_prefix : forall p w n, follow w p <> None -> follow w (firstn n p) <> None.
Proof.
  induction p as [|i p IH]; intros w [|n] H; cbn [firstn follow] in *; try discriminate; auto.
  destruct (get_child w i); auto.
Qed.
Lemma bubble_log : forall path, follow root path <> None ->
  forall n s log e, exists calls,
    snd (fst (bubble M (St * list (call M St)) (recording M St handle) root path n (s, log) e)) = log ++ calls /\
    (exists k, map (fun c => fst (fst c)) calls = firstn k (map (fun d => firstn d path) (rev (seq 0 n)))) /\
    chained M St handle (s, e) calls (fst (fst (bubble M (St * list (call M St)) (recording M St handle) root path n (s, log) e)),
                          snd (bubble M (St * list (call M St)) (recording M St handle) root path n (s, log) e)) /\
    (length calls = n \/ e_bubbling (snd (bubble M (St * list (call M St)) (recording M St handle) root path n (s, log) e)) = false).
Proof.
  intros path HP. induction n as [|n IH]; intros s log e.
  - exists []. cbn. rewrite app_nil_r. split; auto. split; [exists 0; auto|]. auto.
  - cbn [bubble]. destruct (e_bubbling e) eqn:B; cbn [negb].
    2:{ exists []. cbn. rewrite app_nil_r. split; auto. split; [exists 0; auto|]. auto. }
    unfold handle_at. pose proof (follow_prefix path root n HP) as F. destruct (follow root (firstn n path)); [|congruence].
    unfold recording at 1 3 5 7. cbn [fst snd]. destruct (handle (firstn n path) s e) as [[r s'] e'] eqn:H.
    set (e2 := match r with Some m => with_msg m e' | None => e' end).
    destruct (IH s' (log ++ [(firstn n path, s, e)]) e2) as (calls & H1 & (k & H2) & H3 & H4).
    exists ((firstn n path, s, e) :: calls). split; [|split; [|split]].
    + rewrite H1. rewrite <- app_assoc. reflexivity.
    + exists (S k). rewrite seq_S, rev_app_distr. cbn [rev app map firstn fst Nat.add]. f_equal. exact H2.
    + cbn [chained fst snd]. split; auto. split; auto. unfold after. rewrite H. exact H3.
    + cbn [length]. destruct H4; auto.
Qed.
End B.

(** ** Selectors *)
Lemma split_hash_none : forall t, ~ In 35%Z t -> split_hash t = None.
Proof.
  induction t as [|c t IH]; simpl; intros H; auto. destruct (Z.eqb_spec c 35). exfalso; auto. rewrite IH; auto.
Qed.
Lemma split_hash_some : forall t i, ~ In 35%Z t -> split_hash (t ++ 35%Z :: i) = Some (t, i).
Proof.
  induction t as [|c t IH]; simpl; intros i H; auto. destruct (Z.eqb_spec c 35). exfalso; auto. rewrite IH; auto.
Qed.
Lemma has_id_iff : forall i d, has_id i d = true <-> w_id d = Some i.
Proof.
  intros. unfold has_id. destruct (w_id d) as [n|]; [|split; discriminate]. rewrite text_eqb_eq. split; congruence.
Qed.
