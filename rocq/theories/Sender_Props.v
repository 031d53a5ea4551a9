(** C105: a message says who sent it. *)
From Coq Require Import String ZArith List Bool Lia.
From Verif Require Import Text_Model Scroll_Model Bars_Model Pointer_Model Pointer_Spec Pointer_Proofs Pointer_Props Sender_Model Sender_Spec Sender_Proofs.
From Verif Require Tree_Model Tree_Spec Tree_Proofs.
Import ListNotations.
Notation length := List.length.
Open Scope list_scope.

(** C105: the application is given a message exactly if a widget answers the event. *)
Theorem C105_answered : forall x y answers press w r,
  sender x y answers press w r = None <-> answerer x y answers press w r = None.
Proof. intros. rewrite sender_is. destruct (answerer x y answers press w r); cbn; split; congruence. Qed.
(** C105: unless it is inside a centring container, the widget that answers a mouse
    event is the one named in the message. *)
Theorem C105_named : forall x y answers press w r p,
  answerer x y answers press w r = Some p -> uncentred w p -> sender x y answers press w r = Some p.
Proof. intros x y answers press w r p A U. rewrite sender_is, A. cbn. now rewrite (spokesman_none p w U). Qed.
(** C105: so where widgets look for the pointer where they are drawn, the widget one
    sees under the pointer, if it answers, is the one named. *)
Theorem C105_seen : forall v x y answers press w r c,
  fair v x y w r -> seen_at x y w r v = Some c -> answers (fst c) = true -> uncentred w (fst c) ->
  sender x y answers press w r = Some (fst c).
Proof.
  intros v x y answers press w r c F S A U. apply C105_named; [|exact U]. unfold answerer.
  rewrite (C57_answer_ends v x y answers press w r c F S A). reflexivity.
Qed.
(** C105, refuted: that the widget that was clicked is named.  Inside centring
    containers it never is: the outermost of them is named instead. *)
Theorem C105_centred_refuted : forall x y answers press w r p q,
  answerer x y answers press w r = Some p -> centred_at w p q -> (forall q', centred_at w p q' -> (length q <= length q')%nat) ->
  sender x y answers press w r = Some q /\ q <> p.
Proof.
  intros x y answers press w r p q A C L. rewrite sender_is, A. cbn. rewrite (spokesman_outermost p w q C L). split; [reflexivity|].
  destruct C as (rest & k & E & N & _). intros ->. apply N. apply (app_inv_head p). now rewrite app_nil_r.
Qed.
Print Assumptions C105_answered. Print Assumptions C105_named. Print Assumptions C105_seen. Print Assumptions C105_centred_refuted.

(** A button on the screen, and one inside a centring container. *)
Definition on_screen (w : widget) : widget :=
  Box (KApp (fun _ => false)) (pane_of 0 (fun _ _ => []) plain (Scroll 0 0 10 5 10 5))
    [Box KScreen (pane_of 0 (fun r _ => [(0%nat, r)]) plain (Scroll 0 0 10 5 10 5)) [w]].
Example C105_example : let r := Area 0 0 10 5 in
  let centre := Box (KCenter false 4 true) (pane_of 0 (fun _ _ => []) plain (Scroll 0 0 10 5 10 5)) [Leaf] in
  answerer 5 2 (fun _ => true) true (on_screen Leaf) r = Some [0; 0]%nat /\ uncentred (on_screen Leaf) [0; 0]%nat /\
  sender 5 2 (fun _ => true) true (on_screen Leaf) r = Some [0; 0]%nat /\
  answerer 5 2 (fun _ => true) true (on_screen centre) r = Some [0; 0; 0]%nat /\ centred_at (on_screen centre) [0; 0; 0]%nat [0; 0]%nat /\
  sender 5 2 (fun _ => true) true (on_screen centre) r = Some [0; 0]%nat.
Proof.
  cbv zeta. split; [reflexivity|]. split; [|split; [reflexivity|]; split; [reflexivity|]; split; [|reflexivity]].
  - intros q (rest & k & E & N & A & C). destruct q as [|[|?] [|[|?] q]]; cbn in E, A; try discriminate E; try (injection A as <-; discriminate C).
    injection E as E. symmetry in E. apply app_eq_nil in E. tauto.
  - exists [0%nat], (Box (KCenter false 4 true) (pane_of 0 (fun _ _ => []) plain (Scroll 0 0 10 5 10 5)) [Leaf]). repeat split. discriminate.
Qed.

(** C105: a message of the keyboard names the widget the key was given to, as it is
    afterwards; there is one exactly if that widget answers. *)
Section Keys.
Variable M : Type.
Variable on_event : Tree_Model.wdata -> Tree_Model.wdata * option M.
Lemma follow_update : forall p w w' f, Tree_Model.follow w p = Some w' ->
  exists w'', Tree_Model.follow (update w p f) p = Some w'' /\ Tree_Model.data w'' = f (Tree_Model.data w').
Proof.
  induction p as [|i p IH]; intros w w' f H.
  - cbn in H. injection H as <-. destruct w; eexists; split; reflexivity.
  - cbn [Tree_Model.follow] in H. destruct w as [d|d ks]; [discriminate|]. cbn [Tree_Model.get_child] in H.
    destruct (nth_error ks i) as [k|] eqn:E; [|discriminate]. destruct (IH k w' f H) as (w'' & H1 & H2). exists w''. split; [|exact H2].
    cbn [update Tree_Model.follow Tree_Model.get_child]. clear - E H1. revert i E. induction ks as [|k0 ks IH]; intros i E; [destruct i; discriminate|].
    destruct i as [|i]; cbn [nth_error] in *; [injection E as ->; exact H1|]. apply IH, E.
Qed.
Theorem C105_key : forall t,
  match Tree_Model.focused_widget t with
  | None => key_envelope M on_event t = None
  | Some w =>
      let (d, o) := on_event (Tree_Model.data w) in
      key_envelope M on_event t =
      match o with Some m => Some (Tree_Model.Envelope m (Tree_Model.w_id d) (Tree_Model.w_type d) true) | None => None end
  end.
Proof.
  intros t. unfold key_envelope, dispatch_key. destruct (Tree_Model.focused_widget t) as [w|] eqn:F; [|reflexivity].
  destruct (on_event (Tree_Model.data w)) as [d o] eqn:E. cbn [snd]. destruct o as [m|]; [|reflexivity].
  unfold focused_sender_info, Tree_Model.focused_widget in *. cbn [Tree_Model.t_root Tree_Model.t_path].
  destruct (follow_update _ _ _ (fun d => fst (on_event d)) F) as (w'' & -> & ->). rewrite E. reflexivity.
Qed.
Lemma update_is : forall p w f, update w p f = Tree_Model.update_at p f w.
Proof.
  induction p as [|i p IH]; intros [d|d ks] f; try reflexivity. rewrite Tree_Proofs.update_box. cbn [update]. f_equal.
  revert i. induction ks as [|k ks IHk]; intros [|i]; cbn [Tree_Proofs.upd_kids]; try reflexivity; f_equal; auto.
Qed.
(** C105: a key changes no widget but the one it was given to. *)
Theorem C105_key_alone : forall t q, q <> Tree_Model.t_path t ->
  option_map Tree_Model.data (Tree_Model.follow (Tree_Model.t_root (fst (dispatch_key M on_event t))) q) = option_map Tree_Model.data (Tree_Model.follow (Tree_Model.t_root t) q).
Proof.
  intros t q N. unfold dispatch_key. destruct (Tree_Model.focused_widget t) as [w|]; [|reflexivity]. cbn [fst Tree_Model.t_root]. rewrite update_is.
  pose proof (Tree_Proofs.follow_update_other (Tree_Model.t_path t) (fun d => fst (on_event d)) (Tree_Model.t_root t) q N) as H.
  destruct (Tree_Model.follow (Tree_Model.t_root t) q) as [k|]; [|rewrite H; reflexivity]. destruct H as (k' & -> & E & _). cbn. rewrite E. reflexivity.
Qed.
End Keys.
Print Assumptions C105_key. Print Assumptions C105_key_alone.
