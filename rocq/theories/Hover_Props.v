(** C120: what is hovered is what is under the pointer. *)
From Coq Require Import String ZArith List Bool Arith Lia.
From Verif Require Import Text_Model Name_Model Hover_Model Hover_Spec Hover_Proofs.
From Verif Require Pointer_Model Pointer_Spec Pointer_Props.
Import ListNotations.
Open Scope nat_scope.
Open Scope list_scope.

Lemma not_user : forall k l, In k l -> Forall (fun k => ~ is_user k) l -> ~ is_user k.
Proof. intros k l I F. rewrite Forall_forall in F. apply F. exact I. Qed.
Ltac lib := repeat constructor; intros (p0 & a0 & E0); discriminate E0.

(** After a move, whatever moves came before it, a button, switch or header icon is
    hovered if it was handed this move and not otherwise, shown or not. *)
Theorem C120_last : forall uc um h found handed n q x, at_place n q = Some x -> in_tree n q -> In (n_kind x) hoverable ->
  exists y, at_place (moves uc um (h ++ [(found, handed)]) n) q = Some y /\ n_kind y = n_kind x /\
    (hovered (n_look y) = true <-> In q handed).
Proof.
  intros uc um h found handed n q x E T K. assert (U : ~ is_user (n_kind x)) by (apply (not_user _ _ K); lib).
  rewrite moves_app. destruct (moves_at uc um h n q x E U) as (z & Z1 & Z2 & _ & Z4).
  rewrite <- Z2 in U, K. apply Z4 in T.
  destruct (move_at uc um found handed _ q z Z1 U) as (y & Y1 & Y2 & _ & Y4 & Y5 & _).
  exists y. cbn [moves fold_left fst snd]. split; [exact Y1|]. split; [congruence|].
  destruct (in_dec (list_eq_dec Nat.eq_dec) q handed) as [I | I].
  - rewrite (Y4 T I). split; [auto|intros _].
    destruct (n_look z) as [hh pp ll dd]. cbn in K. destruct K as [<- | [<- | [<- | []]]]; destruct hh; reflexivity.
  - rewrite (Y5 T I). split; [|intros C; contradiction].
    destruct (n_look z) as [hh pp ll dd]. cbn in K. destruct K as [<- | [<- | [<- | []]]]; destruct hh; cbn; discriminate.
Qed.
Print Assumptions C120_last.

(** Likewise a text shows the link under the pointer if it was handed the move, and
    none otherwise. *)
Theorem C120_link : forall uc um h found handed n q x, at_place n q = Some x -> in_tree n q -> In (n_kind x) linked ->
  exists y, at_place (moves uc um (h ++ [(found, handed)]) n) q = Some y /\ n_kind y = n_kind x /\
    (In q handed -> link (n_look y) = found q) /\ (~ In q handed -> link (n_look y) = None).
Proof.
  intros uc um h found handed n q x E T K. assert (U : ~ is_user (n_kind x)) by (apply (not_user _ _ K); lib).
  rewrite moves_app. destruct (moves_at uc um h n q x E U) as (z & Z1 & Z2 & _ & Z4).
  rewrite <- Z2 in U, K. apply Z4 in T.
  destruct (move_at uc um found handed _ q z Z1 U) as (y & Y1 & Y2 & _ & Y4 & Y5 & _).
  exists y. cbn [moves fold_left fst snd]. split; [exact Y1|]. split; [congruence|].
  split; intros I; [rewrite (Y4 T I)|rewrite (Y5 T I)];
    destruct (n_look z) as [hh pp ll dd]; cbn in K; destruct K as [<- | [<- | []]]; destruct ll as [l|]; cbn;
    try reflexivity; destruct (found q); reflexivity.
Qed.
Print Assumptions C120_link.

(** A scroll bar that is not being dragged likewise; one that is stays as it is. *)
Theorem C120_bar : forall uc um found handed n q x, at_place n q = Some x -> in_tree n q -> n_kind x = KBar ->
  exists y, at_place (move uc um found handed n) q = Some y /\ n_kind y = KBar /\ pressed (n_look y) = pressed (n_look x) /\
    (pressed (n_look x) = false -> (hovered (n_look y) = true <-> In q handed)) /\
    (pressed (n_look x) = true -> n_look y = n_look x).
Proof.
  intros uc um found handed n q x E T K. assert (U : ~ is_user (n_kind x)) by (rewrite K; intros (? & ? & X); discriminate X).
  destruct (move_at uc um found handed n q x E U) as (y & Y1 & Y2 & _ & Y4 & Y5 & _).
  exists y. split; [exact Y1|]. split; [congruence|]. rewrite K in Y4, Y5.
  destruct (in_dec (list_eq_dec Nat.eq_dec) q handed) as [I | I]; [rewrite (Y4 T I)|rewrite (Y5 T I)];
    destruct (n_look x) as [hh pp ll dd]; destruct pp, hh; cbn; repeat split; intros; try reflexivity; try discriminate; auto; contradiction.
Qed.
Print Assumptions C120_bar.

(** With the pointer over a tree whose widgets look for it where they draw (C57): the
    leaf seen there is hovered, and nothing is that did not draw the cell. *)
Theorem C120_seen : forall uc um h found v X Y answers w r n q x,
  Pointer_Spec.fair v X Y w r -> at_place n q = Some x -> in_tree n q -> In (n_kind x) hoverable ->
  exists y, at_place (moves uc um (h ++ [(found, map fst (fst (Pointer_Model.asked X Y answers false w [] r)))]) n) q = Some y /\
    (option_map fst (Pointer_Spec.seen_at X Y w r v) = Some q -> hovered (n_look y) = true) /\
    (hovered (n_look y) = true -> In q (map fst (Pointer_Model.painted X Y w [] r v))).
Proof.
  intros uc um h found v X Y answers w r n q x F E T K.
  destruct (C120_last uc um h found (map fst (fst (Pointer_Model.asked X Y answers false w [] r))) n q x E T K) as (y & Y1 & _ & Y3).
  exists y. split; [exact Y1|]. split.
  - intros S1. apply Y3. rewrite <- (Pointer_Props.C57_seen_first v X Y answers false w r F) in S1.
    unfold Pointer_Spec.first_asked in S1. destruct (fst (Pointer_Model.asked X Y answers false w [] r)) as [|c l]; [discriminate S1|].
    cbn in S1. injection S1 as <-. left. reflexivity.
  - intros Hy. apply Y3 in Hy. apply in_map_iff in Hy. destruct Hy as (c & <- & I). apply in_map.
    apply (Pointer_Props.C57_only_painters v X Y answers false w r c F I).
Qed.
Print Assumptions C120_seen.

(** Whatever looks different afterwards is drawn again, and nothing that had to be drawn
    again is forgotten. *)
Theorem C120_redraw : forall uc um found handed n q x, at_place n q = Some x -> in_tree n q -> ~ is_user (n_kind x) ->
  exists y, at_place (move uc um found handed n) q = Some y /\ n_kind y = n_kind x /\ n_shown y = n_shown x /\
    (dirty (n_look x) = true -> dirty (n_look y) = true) /\
    (n_look y <> n_look x -> dirty (n_look y) = true).
Proof.
  intros uc um found handed n q x E T U.
  destruct (move_at uc um found handed n q x E U) as (y & Y1 & Y2 & Y3 & Y4 & Y5 & _).
  exists y. repeat (split; [assumption|]).
  destruct (in_dec (list_eq_dec Nat.eq_dec) q handed) as [I | I]; [rewrite (Y4 T I)|rewrite (Y5 T I)];
    clear Y1 Y2 Y3 Y4 Y5 E; destruct (n_look x) as [hh pp ll dd];
    destruct (n_kind x); try (exfalso; apply U; unfold is_user; eauto; fail);
    destruct hh, pp, dd, ll as [l|]; cbn; try (destruct (opt_eqb (found q) (Some l))); try (destruct (found q)); cbn;
    split; intros; try reflexivity; congruence.
Qed.
Print Assumptions C120_redraw.

(** Widgets that show nothing of this are as before. *)
Theorem C120_rest : forall uc um found handed n q x, at_place n q = Some x -> in_tree n q ->
  ~ is_user (n_kind x) -> ~ In (n_kind x) (KBar :: hoverable ++ linked ++ forgetful) ->
  exists y, at_place (move uc um found handed n) q = Some y /\ n_kind y = n_kind x /\ n_shown y = n_shown x /\ n_look y = n_look x.
Proof.
  intros uc um found handed n q x E T U K.
  destruct (move_at uc um found handed n q x E U) as (y & Y1 & Y2 & Y3 & Y4 & Y5 & _).
  exists y. repeat (split; [assumption|]).
  destruct (in_dec (list_eq_dec Nat.eq_dec) q handed) as [I | I]; [rewrite (Y4 T I)|rewrite (Y5 T I)];
    destruct (n_kind x); try reflexivity; exfalso; try (apply K; cbn; tauto); apply U; unfold is_user; eauto.
Qed.
Print Assumptions C120_rest.

(** A move ends the press of a switch ... *)
Theorem C120_switch : forall uc um found handed n q x, at_place n q = Some x -> in_tree n q -> n_kind x = KSwitch ->
  exists y, at_place (move uc um found handed n) q = Some y /\ n_kind y = KSwitch /\ pressed (n_look y) = false.
Proof.
  intros uc um found handed n q x E T K. assert (U : ~ is_user (n_kind x)) by (rewrite K; intros (? & ? & X); discriminate X).
  destruct (move_at uc um found handed n q x E U) as (y & Y1 & Y2 & _ & Y4 & Y5 & _).
  exists y. split; [exact Y1|]. split; [congruence|]. rewrite K in Y4, Y5.
  destruct (in_dec (list_eq_dec Nat.eq_dec) q handed) as [I | I]; [rewrite (Y4 T I)|rewrite (Y5 T I)]; reflexivity.
Qed.
Print Assumptions C120_switch.
(** ... but not that of a button or header icon, wherever the pointer goes and however
    often: it looks pressed until the button of the mouse is released over it. *)
Theorem C120_stuck_refuted : forall uc um h n q x, at_place n q = Some x -> in_tree n q -> In (n_kind x) [KButton; KHeaderIcon] ->
  exists y, at_place (moves uc um h n) q = Some y /\ n_kind y = n_kind x /\ pressed (n_look y) = pressed (n_look x).
Proof.
  intros uc um. induction h as [|[f hs] h IH]; intros n q x E T K.
  - exists x. auto.
  - assert (U : ~ is_user (n_kind x)) by (apply (not_user _ _ K); lib).
    cbn [moves fold_left fst snd]. destruct (move_at uc um f hs n q x E U) as (z & Z1 & Z2 & _ & Z4 & Z5 & Z6).
    pose proof T as T'. apply Z6 in T'.
    destruct (IH _ q z Z1 T') as (y & Y1 & Y2 & Y3); [rewrite Z2; exact K|].
    exists y. split; [exact Y1|]. split; [congruence|]. rewrite Y3.
    destruct (in_dec (list_eq_dec Nat.eq_dec) q hs) as [I | I]; [rewrite (Z4 T I)|rewrite (Z5 T I)];
      destruct (n_look x) as [hh pp ll dd]; cbn in K; destruct K as [<- | [<- | []]]; destruct hh; reflexivity.
Qed.
Print Assumptions C120_stuck_refuted.

(** The title and clock of a header, the inputs and the search icon take up a link
    under the pointer, but do not drop it when the pointer has left. *)
Theorem C120_forgetful_refuted : forall uc um found handed n q x, at_place n q = Some x -> in_tree n q -> In (n_kind x) forgetful ->
  exists y, at_place (move uc um found handed n) q = Some y /\ n_kind y = n_kind x /\
    (In q handed -> link (n_look y) = found q) /\ (~ In q handed -> link (n_look y) = link (n_look x)).
Proof.
  intros uc um found handed n q x E T K. assert (U : ~ is_user (n_kind x)) by (apply (not_user _ _ K); lib).
  destruct (move_at uc um found handed n q x E U) as (y & Y1 & Y2 & _ & Y4 & Y5 & _).
  exists y. split; [exact Y1|]. split; [congruence|].
  split; intros I; [rewrite (Y4 T I)|rewrite (Y5 T I)].
  - assert (L : link (if opt_eqb (found q) (link (n_look x)) then n_look x else Look (hovered (n_look x)) (pressed (n_look x)) (found q) true) = found q).
    { destruct (opt_eqb (found q) (link (n_look x))) eqn:E2; [|reflexivity]. apply opt_eqb_iff in E2. congruence. }
    cbn in K. repeat destruct K as [<- | K]; try exact L; destruct K.
  - cbn in K. repeat destruct K as [<- | K]; try reflexivity; destruct K.
Qed.
Print Assumptions C120_forgetful_refuted.

(** *** A case: a screen with a box of a button and a hidden switch, a text, and a header *)
Definition plain := Look false false None false.
Definition house := N KScreen true plain
  [N KContainer true plain [N KButton true (Look true true None false) []; N KSwitch false (Look true true None false) []];
   N KStatic true (Look false false (Some (str "a")) false) [];
   N KHeader true plain [N KHeaderTitle true (Look false false (Some (str "t")) false) []]].
Definition idle (s : look) := s.
Definition none_found (p : list nat) : option text := None.
Example house_ok : at_place house [0; 1] <> None /\ in_tree house [0; 1] /\ in_tree house [2; 0].
Proof. cbn. unfold parents. repeat split; try discriminate; left; cbn; tauto. Qed.
Example house_moved : map (fun q => option_map n_look (at_place (move idle idle none_found [[0; 0]] house) q)) [[0; 0]; [0; 1]; [1]; [2; 0]]
  = [Some (Look true true None true); Some (Look false false None true); Some (Look false false None true); Some (Look false false (Some (str "t")) false)].
Proof. vm_compute. reflexivity. Qed.
Example house_left : map (fun q => option_map n_look (at_place (moves idle idle [(none_found, [[0; 0]]); (none_found, [])] house) q)) [[0; 0]; [1]]
  = [Some (Look false true None true); Some (Look false false None true)].
Proof. vm_compute. reflexivity. Qed.
