(** Lemmas on hovering. *)
From Coq Require Import ZArith List Bool Arith Lia.
From Verif Require Import Text_Model Keys_Proofs Name_Model Hover_Model Hover_Spec.
Import ListNotations.
Open Scope nat_scope.
Open Scope list_scope.

Lemma walks_iff : forall k, walks k = true <-> In k parents \/ is_user k.
Proof.
  intros k. unfold is_user. split.
  - destruct k; cbn; intros E; try discriminate E; try (left; tauto). right; eauto.
  - intros [H | (p & a & ->)]; [|reflexivity]. cbn in H. repeat destruct H as [<- | H]; try reflexivity; destruct H.
Qed.
Lemma forwards_walks : forall k, forwards k = true -> walks k = true.
Proof. destruct k; cbn; congruence. Qed.

Lemma opt_eqb_iff : forall a b, opt_eqb a b = true <-> a = b.
Proof.
  intros [a|] [b|]; cbn; try (split; congruence). rewrite text_eqb_iff. split; congruence.
Qed.

Section User.
Variables (uc um : look -> look).

(** *** Clearing *)
Lemma own_twice : forall k s, ~ is_user k -> own_clear uc k (own_clear uc k s) = own_clear uc k s.
Proof.
  intros k [h p l d] U. destruct k; try reflexivity; try (exfalso; apply U; unfold is_user; eauto; fail);
    destruct h, p, l as [?|], d; reflexivity.
Qed.
Lemma own_iter : forall k s j, ~ is_user k -> Nat.iter (S j) (own_clear uc k) s = own_clear uc k s.
Proof.
  intros k s j U. induction j as [|j IH]; [reflexivity|].
  change (own_clear uc k (Nat.iter (S j) (own_clear uc k) s) = own_clear uc k s). rewrite IH. apply own_twice. exact U.
Qed.

(** [n'] is [n] after some calls of [clear_hover] *)
Inductive partly : node -> node -> Prop :=
| partly_node : forall k sh s j ks ks',
    (forwards k = true -> Forall2 partly ks ks') -> (forwards k = false -> ks' = ks) ->
    partly (N k sh s ks) (N k sh (Nat.iter j (own_clear uc k) s) ks').

Lemma node_ind2 : forall P : node -> Prop, (forall k sh s ks, Forall P ks -> P (N k sh s ks)) -> forall n, P n.
Proof.
  intros P H. fix go 1. intros [k sh s ks]. apply H.
  induction ks as [|x r IH]; constructor; [apply go|exact IH].
Qed.

Lemma partly_refl : forall n, partly n n.
Proof.
  apply node_ind2. intros k sh s ks H. apply (partly_node k sh s 0); [|reflexivity].
  intros _. induction H; constructor; assumption.
Qed.

(** what one call does to a node that has had some *)
Lemma clear_shape : forall n n', partly n n' ->
  exists j ks', clear_hover uc n' = N (n_kind n) (n_shown n) (Nat.iter (S j) (own_clear uc (n_kind n)) (n_look n)) ks' /\
    (forwards (n_kind n) = true -> Forall2 partly (n_kids n) ks') /\ (forwards (n_kind n) = false -> ks' = n_kids n).
Proof.
  induction n as [k sh s ks H] using node_ind2.
  intros n' P. inversion P as [? ? ? j ? ks' Q1 Q2]; subst. cbn [clear_hover n_kind n_shown n_look n_kids].
  exists j. eexists. split; [reflexivity|]. destruct (forwards k) eqn:F; (split; intros X; try discriminate X); auto.
  specialize (Q1 eq_refl). clear P Q2. revert ks' Q1. induction H as [|x r Hx H IH]; intros ks' Q; inversion Q as [|? x' ? r' Qx Qr]; subst; cbn; constructor.
  - destruct (to_all k || n_shown x'); [|exact Qx]. destruct (Hx _ Qx) as (j' & kk & -> & A1 & A2).
    destruct x as [k1 sh1 s1 ks1]. cbn [n_kind n_shown n_look n_kids] in *. apply (partly_node k1 sh1 s1 (S j')); assumption.
  - apply IH. exact Qr.
Qed.

Lemma Forall2_nth : forall (R : node -> node -> Prop) l l' i x, Forall2 R l l' -> nth_error l i = Some x -> exists x', nth_error l' i = Some x' /\ R x x'.
Proof.
  intros R l l' i x H. revert i. induction H as [|y y' r r' Hy H IH]; intros [|i] E; try discriminate E.
  - injection E as <-. exists y'. auto.
  - apply IH. exact E.
Qed.

Lemma height_kid : forall ks i x, nth_error ks i = Some x -> height x <= fold_right (fun c m => Nat.max (height c) m) 0 ks.
Proof.
  induction ks as [|y r IH]; intros [|i] x E; try discriminate E; cbn.
  - injection E as <-. lia.
  - specialize (IH i x E). lia.
Qed.

Lemma clear_all_at : forall q n n' f x, partly n n' -> height n <= f -> at_place n q = Some x ->
  exists y, at_place (clear_all uc f n') q = Some y /\ n_kind y = n_kind x /\ n_shown y = n_shown x /\
    (in_tree n q -> exists j, n_look y = Nat.iter (S j) (own_clear uc (n_kind x)) (n_look x)) /\
    (~ in_tree n q -> n_look y = n_look x) /\
    (in_tree n q <-> in_tree (clear_all uc f n') q).
Proof.
  induction q as [|i r IH]; intros n n' f x P Hf E;
    (destruct f as [|f]; [destruct n; cbn in Hf; lia|]);
    destruct (clear_shape n n' P) as (j & ks' & Ec & A1 & A2);
    cbn [clear_all]; rewrite Ec.
  - cbn [at_place] in *. injection E as <-. eexists. split; [reflexivity|]. cbn [n_kind n_shown n_look in_tree].
    split; [reflexivity|]. split; [reflexivity|]. split; [eauto|]. tauto.
  - cbn [at_place in_tree n_kids n_kind] in *.
    destruct n as [k sh s ks]. cbn [n_kids n_kind n_look n_shown] in *. pose proof (walks_iff k) as WI.
    destruct (nth_error ks i) as [c|] eqn:Ei; [|discriminate E].
    assert (Hh : height c <= f) by (pose proof (height_kid ks i c Ei); cbn in Hf; lia).
    destruct (walks k) eqn:W; cbn [at_place in_tree n_kids n_kind n_look n_shown].
    + assert (Hc : exists c', nth_error ks' i = Some c' /\ partly c c').
      { destruct (forwards k) eqn:F.
        - apply (Forall2_nth _ _ _ _ _ (A1 eq_refl) Ei).
        - rewrite (A2 eq_refl). exists c. split; [exact Ei|apply partly_refl]. }
      destruct Hc as (c' & Ec' & Pc). rewrite nth_error_map, Ec'. cbn [option_map].
      destruct (IH c c' f x Pc Hh E) as (y & Y1 & Y2 & Y3 & Y4 & Y5 & Y6).
      exists y. repeat (split; [assumption|]). split; [tauto|]. split; [tauto|]. tauto.
    + assert (F : forwards k = false).
      { destruct (forwards k) eqn:F; [|reflexivity]. rewrite (forwards_walks k F) in W. discriminate W. }
      rewrite (A2 F), Ei. exists x. split; [exact E|]. split; [reflexivity|]. split; [reflexivity|].
      split; [intros [W' _]; apply WI in W'; discriminate W'|]. split; [reflexivity|]. tauto.
Qed.

(** *** Updates *)
Lemma at_index_nth : forall i f l j, nth_error (at_index i f l) j = if Nat.eqb i j then option_map f (nth_error l j) else nth_error l j.
Proof.
  induction i as [|i IH]; intros f [|x r] [|j]; cbn; try reflexivity.
  - destruct (i =? j)%nat; reflexivity.
  - apply IH.
Qed.
Lemma update_at : forall q p f n x, at_place n q = Some x ->
  exists y, at_place (update p f n) q = Some y /\ n_kind y = n_kind x /\ n_shown y = n_shown x /\
    (p = q -> n_look y = f (n_kind x) (n_look x)) /\ (p <> q -> n_look y = n_look x) /\
    (in_tree n q <-> in_tree (update p f n) q).
Proof.
  induction q as [|i r IH]; intros p f [k sh s ks] x E.
  - cbn in E. injection E as <-. destruct p as [|a p]; cbn; eexists; (split; [reflexivity|]); cbn; repeat (split; [tauto || congruence || discriminate|]); tauto.
  - cbn [at_place n_kids] in E. destruct (nth_error ks i) as [c|] eqn:Ei; [|discriminate E].
    destruct p as [|a p]; cbn [update at_place n_kids in_tree n_kind].
    + rewrite Ei. exists x. repeat (split; [assumption || reflexivity|]). split; [discriminate|]. split; [reflexivity|]. tauto.
    + rewrite at_index_nth, Ei. destruct (Nat.eqb_spec a i) as [-> | Na]; cbn [option_map].
      * destruct (IH p f c x E) as (y & Y1 & Y2 & Y3 & Y4 & Y5 & Y6). exists y. repeat (split; [assumption|]).
        split; [intros X; injection X; exact Y4|]. split; [intros X; apply Y5; congruence|]. tauto.
      * exists x. split; [exact E|]. split; [reflexivity|]. split; [reflexivity|]. split; [congruence|]. split; [reflexivity|]. tauto.
Qed.

Lemma move_twice : forall o k s, ~ is_user k -> on_move um o k (on_move um o k s) = on_move um o k s.
Proof.
  intros o k [h p l d] U.
  destruct k; try reflexivity; try (exfalso; apply U; unfold is_user; eauto; fail); cbn;
    try (destruct h; destruct p; reflexivity);
    (destruct (opt_eqb o l) eqn:E; cbn; [rewrite E; reflexivity|]);
    (assert (E2 : opt_eqb o o = true) by (apply opt_eqb_iff; reflexivity)); rewrite E2; reflexivity.
Qed.

Lemma updates_at : forall found hs n q x, at_place n q = Some x -> ~ is_user (n_kind x) ->
  exists y, at_place (fold_left (fun n p => update p (on_move um (found p)) n) hs n) q = Some y /\ n_kind y = n_kind x /\ n_shown y = n_shown x /\
    (In q hs -> n_look y = on_move um (found q) (n_kind x) (n_look x)) /\ (~ In q hs -> n_look y = n_look x) /\
    (in_tree n q <-> in_tree (fold_left (fun n p => update p (on_move um (found p)) n) hs n) q).
Proof.
  intros found. induction hs as [|p r IH]; intros n q x E U.
  - exists x. cbn. tauto.
  - cbn [fold_left]. destruct (update_at q p (on_move um (found p)) n x E) as (z & Z1 & Z2 & Z3 & Z4 & Z5 & Z6).
    destruct (IH _ q z Z1) as (y & Y1 & Y2 & Y3 & Y4 & Y5 & Y6); [rewrite Z2; exact U|].
    exists y. split; [exact Y1|]. split; [congruence|]. split; [congruence|]. rewrite <- Y6, <- Z6.
    destruct (list_eq_dec Nat.eq_dec p q) as [-> | N].
    + specialize (Z4 eq_refl). split; [|split; [intros C; destruct C; left; reflexivity|tauto]]. intros _.
      destruct (in_dec (list_eq_dec Nat.eq_dec) q r) as [I | I].
      * rewrite (Y4 I), Z2, Z4. apply move_twice. exact U.
      * rewrite (Y5 I). exact Z4.
    + specialize (Z5 N). split; [|split; [|tauto]].
      * intros [C | I]; [contradiction|]. rewrite (Y4 I), Z2, Z5. reflexivity.
      * intros C. rewrite Y5, Z5; [reflexivity|]. intros I. apply C. right. exact I.
Qed.

Lemma move_at : forall found hs n q x, at_place n q = Some x -> ~ is_user (n_kind x) ->
  exists y, at_place (move uc um found hs n) q = Some y /\ n_kind y = n_kind x /\ n_shown y = n_shown x /\
    (in_tree n q -> In q hs -> n_look y = on_move um (found q) (n_kind x) (own_clear uc (n_kind x) (n_look x))) /\
    (in_tree n q -> ~ In q hs -> n_look y = own_clear uc (n_kind x) (n_look x)) /\
    (in_tree n q <-> in_tree (move uc um found hs n) q).
Proof.
  intros found hs n q x E U.
  destruct (clear_all_at q n n (height n) x (partly_refl n) (le_n _) E) as (z & Z1 & Z2 & Z3 & Z4 & Z5 & Z6).
  destruct (updates_at found hs _ q z Z1) as (y & Y1 & Y2 & Y3 & Y4 & Y5 & Y6); [rewrite Z2; exact U|].
  unfold move. exists y. split; [exact Y1|]. split; [congruence|]. split; [congruence|].
  assert (L : in_tree n q -> n_look z = own_clear uc (n_kind x) (n_look x)).
  { intros T. destruct (Z4 T) as (j & ->). apply own_iter. exact U. }
  split; [intros T I; rewrite (Y4 I), Z2, (L T); reflexivity|].
  split; [intros T I; rewrite (Y5 I), (L T); reflexivity|]. tauto.
Qed.

Lemma moves_at : forall h n q x, at_place n q = Some x -> ~ is_user (n_kind x) ->
  exists y, at_place (moves uc um h n) q = Some y /\ n_kind y = n_kind x /\ n_shown y = n_shown x /\
    (in_tree n q <-> in_tree (moves uc um h n) q).
Proof.
  induction h as [|[f hs] h IH]; intros n q x E U.
  - exists x. cbn. tauto.
  - cbn [moves fold_left fst snd]. destruct (move_at f hs n q x E U) as (z & Z1 & Z2 & Z3 & _ & _ & Z6).
    destruct (IH _ q z Z1) as (y & Y1 & Y2 & Y3 & Y4); [rewrite Z2; exact U|].
    exists y. split; [exact Y1|]. split; [congruence|]. split; [congruence|].
    transitivity (in_tree (move uc um f hs n) q); [exact Z6|exact Y4].
Qed.
Lemma moves_app : forall a b n, moves uc um (a ++ b) n = moves uc um b (moves uc um a n).
Proof. intros. unfold moves. apply fold_left_app. Qed.
End User.
