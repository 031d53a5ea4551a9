(** Lemmas about who hears a message. *)
From Coq Require Import List Bool Arith Lia.
From Verif Require Import Text_Model Tree_Model Tree_Spec Tree_Proofs Hear_Model Hear_Spec.
Import ListNotations.

Section H.
Variables M St : Type.
Variable own : list nat -> St -> envelope M -> option M * St * envelope M.
Notation rec := (recording M St own).
Notation LS := (St * list (call M St))%type.
Notation path_of := (fun c : call M St => fst (fst c)).

Lemma until_log : forall l s log e, exists cs k o s' e',
  until_changed M LS rec l (s, log) e = (o, (s', log ++ cs), e') /\ map path_of cs = firstn k l /\
  (quiet M St own -> map path_of cs = l /\ o = None /\ e_bubbling e' = e_bubbling e).
Proof.
  induction l as [|p l IH]; intros s log e; cbn [until_changed].
  - exists [], 0, None, s, e. rewrite app_nil_r. auto.
  - unfold recording at 1. cbn [fst snd]. destruct (own p s e) as [[o s1] e1] eqn:E. destruct o as [m|].
    + exists [(p, s, e)], 1, (Some m), s1, e1. split; [reflexivity|]. split; [reflexivity|]. intros Q.
      specialize (Q p s e). rewrite E in Q. destruct Q. discriminate.
    + destruct (IH s1 (log ++ [(p, s, e)]) e1) as (cs & k & o & s' & e' & H1 & H2 & H3). rewrite H1.
      exists ((p, s, e) :: cs), (S k), o, s', e'. rewrite <- app_assoc. split; [reflexivity|]. cbn [map fst firstn]. split; [now rewrite H2|].
      intros Q. destruct (H3 Q) as (A & B & C). split; [now rewrite A|]. split; [exact B|].
      specialize (Q p s e). rewrite E in Q. cbn [fst snd] in Q. rewrite C. apply Q.
Qed.
Lemma all_log : forall l h s log e, exists cs o s' e',
  all_of M LS rec h l (s, log) e = (o, (s', log ++ cs), e') /\ map path_of cs = l /\
  (quiet M St own -> h = None -> o = None /\ e_bubbling e' = e_bubbling e).
Proof.
  induction l as [|p l IH]; intros h s log e; cbn [all_of].
  - exists [], h, s, e. rewrite app_nil_r. auto.
  - unfold recording at 1. cbn [fst snd]. destruct (own p s e) as [[o s1] e1] eqn:E.
    destruct (IH o s1 (log ++ [(p, s, e)]) e1) as (cs & o' & s' & e' & H1 & H2 & H3). rewrite H1.
    exists ((p, s, e) :: cs), o', s', e'. rewrite <- app_assoc. split; [reflexivity|]. cbn [map fst]. split; [now rewrite H2|].
    intros Q Hn. pose proof (Q p s e) as Qp. rewrite E in Qp. cbn [fst snd] in Qp. destruct Qp as [-> B]. destruct (H3 Q eq_refl) as [-> C].
    split; [reflexivity|]. congruence.
Qed.

Variable root : widget.
Variables users overlays : list widget.
Hypothesis A : application root users overlays.
Variables (i : nat) (rest : list nat).
Notation path := (0 :: i :: rest).
Hypothesis F : follow root path <> None.

(** The steps inside the screen. *)
Fixpoint climb (n : nat) (s : LS) (e : envelope M) : LS * envelope M :=
  match n with
  | O => (s, e)
  | S n => if negb (e_bubbling e) then (s, e)
           else let '(o, s, e) := rec (firstn (2 + n) path) s e in climb n s (match o with Some m => with_msg m e | None => e end)
  end.
Lemma bubble_climb : forall n s e,
  bubble M LS (handles M LS rec root) root path (2 + n) s e =
  (let '(s, e) := climb n s e in bubble M LS (handles M LS rec root) root path 2 s e).
Proof.
  induction n as [|n IH]; intros s e; [reflexivity|]. replace (2 + S n) with (S (2 + n)) by lia.
  cbn [climb]. cbn [bubble]. destruct (e_bubbling e) eqn:B; cbn [negb].
  2:{ rewrite B. reflexivity. }
  unfold handle_at. pose proof (follow_prefix path root (2 + n) F) as G. destruct (follow root (firstn (2 + n) path)); [|congruence].
  cbn [firstn Nat.add handles]. destruct (rec _ s e) as [[o s1] e1]. apply IH.
Qed.
Lemma climb_log : forall n s log e, exists cs k s' e',
  climb n (s, log) e = ((s', log ++ cs), e') /\
  map path_of cs = firstn k (map (fun d => firstn d path) (rev (seq 2 n))) /\
  chained M St own (s, e) cs (s', e') /\
  (map path_of cs = map (fun d => firstn d path) (rev (seq 2 n)) \/ e_bubbling e' = false) /\
  (quiet M St own -> e_bubbling e' = e_bubbling e).
Proof.
  induction n as [|n IH]; intros s log e.
  - exists [], 0, s, e. cbn. rewrite app_nil_r. repeat split; auto.
  - cbn [climb]. destruct (e_bubbling e) eqn:B; cbn [negb].
    2:{ exists [], 0, s, e. rewrite app_nil_r. cbn. repeat split; auto. }
    unfold recording at 1. cbn [fst snd]. destruct (own (firstn (2 + n) path) s e) as [[o s1] e1] eqn:E.
    set (e2 := match o with Some m => with_msg m e1 | None => e1 end).
    destruct (IH s1 (log ++ [(firstn (2 + n) path, s, e)]) e2) as (cs & k & s' & e' & H1 & H2 & H3 & H4 & H5).
    exists ((firstn (2 + n) path, s, e) :: cs), (S k), s', e'. rewrite <- app_assoc in H1. split; [exact H1|].
    rewrite seq_S, rev_app_distr. cbn [rev app map]. split; [cbn [firstn]; now rewrite H2|]. split; [|split].
    + cbn [chained fst snd]. split; [reflexivity|]. split; [exact B|]. unfold after. rewrite E. exact H3.
    + destruct H4 as [H4|H4]; [left; now rewrite H4|right; exact H4].
    + intros Q. rewrite (H5 Q). specialize (Q (firstn (2 + n) path) s e). rewrite E in Q. cbn [fst snd] in Q. destruct Q as [Qo Qe].
      subst e2. rewrite Qo. congruence.
Qed.
Lemma inside_eq : inside path = map (fun d => firstn d path) (rev (seq 2 (length rest))).
Proof.
  unfold inside, ancestors. cbn [length]. rewrite <- (firstn_skipn 2 (seq 0 (S (S (length rest))))).
  cbn [seq firstn skipn]. rewrite rev_app_distr, map_app, filter_app. cbn [rev app map firstn filter length Nat.leb]. rewrite app_nil_r.
  assert (forall l, (forall d, In d l -> 2 <= d <= length path) -> filter (fun p => 2 <=? length p) (map (fun d => firstn d path) l) = map (fun d => firstn d path) l) as K.
  { induction l as [|d l IH]; intros Hl; [reflexivity|]. cbn [map filter]. rewrite firstn_length, Nat.min_l by (apply Hl; now left).
    destruct (Nat.leb_spec 2 d); [|specialize (Hl d (or_introl eq_refl)); lia]. f_equal. apply IH. intros; apply Hl; now right. }
  apply K. intros d D. apply in_rev, in_seq in D. cbn [length]. lia.
Qed.

(** All calls: up through the screen, then the screen's children, then again and the overlays. *)
Lemma rise_log : forall s e, exists c1 c2 c3 k1 k2 k3 tail s1 e1,
  calls M St own root path s e = c1 ++ c2 ++ c3 /\
  map path_of c1 = firstn k1 (inside path) /\ map path_of c2 = firstn k2 (user_paths users) /\
  map path_of c3 = firstn k3 (user_paths users) ++ tail /\ (tail = [] \/ tail = overlay_paths overlays) /\
  chained M St own (s, e) c1 (s1, e1) /\
  (map path_of c1 = inside path \/ e_bubbling e1 = false) /\
  (e_bubbling e1 = false -> c2 = [] /\ c3 = []) /\
  (quiet M St own -> e_bubbling e = true ->
   map path_of c1 = inside path /\ map path_of c2 = user_paths users /\ map path_of c3 = user_paths users ++ overlay_paths overlays).
Proof.
  intros s e. unfold calls, rise, bubble_message. change (length path) with (2 + length rest). rewrite bubble_climb.
  destruct (climb_log (length rest) s [] e) as (c1 & k1 & s1 & e1 & C1 & C2 & C3 & C4 & C5). rewrite C1. rewrite inside_eq.
  destruct A as (d & sc & ->).
  cbn [bubble]. destruct (e_bubbling e1) eqn:B1; cbn [negb].
  2:{ exists c1, [], [], k1, 0, 0, [], s1, e1. cbn [fst snd app firstn]. rewrite !app_nil_r.
      split; [reflexivity|]. split; [exact C2|]. split; [reflexivity|]. split; [reflexivity|]. split; [now left|]. split; [exact C3|]. split; [now right|]. split; [auto|].
      intros Q B. exfalso. specialize (C5 Q). congruence. }
  unfold handle_at at 1. cbn [follow get_child firstn nth_error handles].
  unfold screen_handles at 1. cbn [kids_of]. fold (user_paths users).
  destruct (until_log (user_paths users) s1 ([] ++ c1) e1) as (c2 & k2 & o2 & s2 & e2 & D1 & D2 & D3). rewrite D1.
  set (e2' := match o2 with Some m => with_msg m e2 | None => e2 end).
  destruct (e_bubbling e2') eqn:B2; cbn [negb].
  2:{ exists c1, c2, [], k1, k2, 0, [], s1, e1. cbn [fst snd app firstn]. rewrite !app_nil_r.
      split; [reflexivity|]. split; [exact C2|]. split; [exact D2|]. split; [reflexivity|]. split; [now left|]. split; [exact C3|]. split; [destruct C4; [now left|congruence]|]. split; [congruence|]. intros Q B. exfalso. destruct (D3 Q) as (_ & -> & X). subst e2'. congruence. }
  unfold handle_at. cbn [follow firstn handles]. unfold app_handles. cbn [kids_of]. unfold screen_handles. cbn [kids_of]. fold (user_paths users) (overlay_paths overlays).
  destruct (until_log (user_paths users) s2 (([] ++ c1) ++ c2) e2') as (c3 & k3 & o3 & s3 & e3 & E1 & E2 & E3). rewrite E1.
  destruct (all_log (overlay_paths overlays) o3 s3 ((([] ++ c1) ++ c2) ++ c3) e3) as (c4 & o4 & s4 & e4 & G1 & G2 & G3). rewrite G1.
  exists c1, c2, (c3 ++ c4), k1, k2, k3, (overlay_paths overlays), s1, e1.
  split; [cbn [app fst snd]; rewrite <- !app_assoc; reflexivity|]. split; [exact C2|]. split; [exact D2|].
  split; [rewrite map_app, G2; f_equal; exact E2|]. split; [now right|]. split; [exact C3|].
  split; [destruct C4; [now left|congruence]|]. split; [congruence|]. intros Q B. split; [destruct C4 as [?|X]; [assumption|congruence]|].
  split; [apply D3, Q|]. rewrite map_app, G2. f_equal. apply E3, Q.
Qed.
End H.
