(** Lemmas about keys, the palette and the focus, continued: where the focus is. *)
From Coq Require Import String ZArith List Bool Arith Lia.
From Verif Require Import Text_Model Tree_Model Tree_Spec Tree_Proofs Keys_Proofs.
From Verif Require Palette_Model Palette_Proofs Palette_Props Keys_Model.
From Verif Require Import Keypress_Model Keypress_Spec Keypress_Proofs.
Import ListNotations.
Notation length := List.length.
Open Scope nat_scope.
Open Scope list_scope.

Section Where.
Variables (W Msg P : Type).
Variable ask : P -> text -> list Palette_Model.hit.
Variable system : Keys_Model.event -> bool.
Variable widget_key : list nat -> Keys_Model.code -> W -> W * option Msg.
Variable screen_key : Keys_Model.code -> W -> W * option Msg.
Variable deliver : list nat -> Msg -> W -> W.
Variable typed : Keys_Model.code -> Palette_Model.palette P -> text.
Variable asked : W -> list text * W.
Variable on_action : text -> W -> bool * W * option text.
Variable on_key : Keys_Model.code -> W -> W * bool.
Variable command_providers : W -> list P.
Notation state := (state W P).
Notation act := (act ask on_action command_providers).
Notation drain := (drain ask).
Notation dispatch := (dispatch ask widget_key screen_key deliver typed).
Notation actions := (actions ask asked on_action command_providers).
Notation give_back := (give_back ask).
Notation tell_app := (tell_app on_key).
Notation press := (press ask system widget_key screen_key deliver typed asked on_action on_key command_providers).
Notation click := (click ask asked on_action command_providers).
Notation handle := (handle ask system widget_key screen_key deliver typed asked on_action on_key command_providers).
Notation turn := (turn ask system widget_key screen_key deliver typed asked on_action on_key command_providers).
Notation turns := (turns ask system widget_key screen_key deliver typed asked on_action on_key command_providers).
Notation back s := (Palette_Model.restore_focus P (s_palette s)).
Notation fit := (Palette_Proofs.fit P ask).
Notation pstep := (Palette_Model.step P ask).
Notation vis := (Palette_Model.visible P).
Notation opener := (opener P).
Notation closer := (closer P).

Variable scr : widget.
Hypothesis U : usable scr.
Hypothesis Calm : forall a w, snd (on_action a w) = None.
Notation order := (focus_order scr).
Notation nf := (length (focus_order scr)).
Notation only := (only scr).

Definition closed_ok (i : nat) (s : state) : Prop :=
  is_open s = false /\ back s = None /\ s_cur s = i /\ exists p, nth_error order i = Some p /\ s_screen s = only p /\ s_path s = 0 :: p.
Definition open_ok (f : nat) (s : state) : Prop :=
  is_open s = true /\ back s = Some f /\ f <= nf /\ s_cur s = nf /\ s_screen s = clear_focus scr /\ s_path s = [2] /\ s_pfocus s = true.
Definition shut_ok (f : nat) (s : state) : Prop :=
  is_open s = false /\ back s = Some f /\ f <= nf /\ s_cur s = nf /\ s_screen s = clear_focus scr /\ s_path s = [2].
Definition lost_ok (s : state) : Prop :=
  is_open s = false /\ back s = None /\ s_cur s = nf /\ s_screen s = clear_focus scr /\ s_path s = [2].
Definition fits (s : state) : Prop := fit (s_palette s).

Lemma counts : forall s : state, clear_focus (s_screen s) = clear_focus scr -> screen_count s = nf /\ count s = nf + (if is_open s then 1 else 0) /\
  clear s = with_focus (clear_focus scr) (s_path s) (s_cur s) (if is_open s then false else s_pfocus s) s.
Proof.
  intros s E. unfold count, clear, screen_count. rewrite (shown_ok scr U _ E), (count_alike scr _ E), E. auto.
Qed.
Lemma counts_clear : forall s : state, clear_focus (s_screen s) = clear_focus scr -> screen_count (clear s) = nf.
Proof.
  intros s E. destruct (counts s E) as (_ & _ & ->). apply counts. apply clear_clear.
Qed.
Lemma index_closed : forall (s : state) i p, is_open s = false -> clear_focus (s_screen s) = clear_focus scr -> nth_error order i = Some p ->
  (s_cur s = i -> s_path s = [] \/ s_path s = 0 :: p) -> fst (focus_index i s) = with_focus (only p) (0 :: p) i (s_pfocus s) s.
Proof.
  intros s i p O E N C. pose proof (n_pos scr U) as Hn. assert (L : i < nf) by (apply nth_error_Some; congruence). pose proof (nth_error_In _ _ N) as I0.
  unfold focus_index. pose proof (counts_clear s E) as CC. destruct (counts s E) as (C1 & C2 & C3). rewrite C2, O, Nat.add_0_r.
  destruct (Nat.eqb_spec nf 0); [lia|]. destruct (Nat.leb_spec nf i); [lia|]. unfold focus_at. rewrite CC. destruct (Nat.ltb_spec i nf); [|lia].
  rewrite C3. cbn [s_screen with_focus]. rewrite (focus_nth_ok scr i p N). cbn [fst]. rewrite O. unfold refocus, with_focus. cbn [s_cur s_path].
  destruct (Nat.eqb_spec i (s_cur s)) as [Ei|Ei].
  - destruct (C (eq_sym Ei)) as [R|R]; rewrite R; cbn [andb negb].
    + unfold path_to. cbn. rewrite (find_path_ok scr U _ i (clear_only scr U p I0)), N. reflexivity.
    + rewrite <- Ei. reflexivity.
  - cbn [andb]. unfold path_to. cbn. rewrite (find_path_ok scr U _ i (clear_only scr U p I0)), N. reflexivity.
Qed.
Lemma index_open : forall s : state, is_open s = true -> clear_focus (s_screen s) = clear_focus scr ->
  (s_cur s = nf -> s_path s = [] \/ s_path s = [2]) -> fst (focus_index nf s) = with_focus (clear_focus scr) [2] nf true s.
Proof.
  intros s O E C. unfold focus_index. pose proof (counts_clear s E) as CC. destruct (counts s E) as (C1 & C2 & C3). rewrite C2, O.
  destruct (Nat.eqb_spec (nf + 1) 0); [lia|]. destruct (Nat.leb_spec (nf + 1) nf); [lia|]. unfold focus_at. rewrite CC, Nat.ltb_irrefl, Nat.sub_diag.
  rewrite C3, O. unfold is_open in *. cbn [with_focus s_palette]. rewrite O. cbn [andb Nat.eqb fst]. unfold refocus, with_focus. cbn [s_cur s_path s_screen s_pfocus].
  destruct (Nat.eqb_spec nf (s_cur s)) as [Ei|Ei].
  - destruct (C (eq_sym Ei)) as [R|R]; rewrite R; cbn [andb negb].
    + unfold path_to, is_open. cbn. rewrite (find_path_ok scr U _ nf (clear_clear scr)), (proj2 (nth_error_None order nf)), Nat.sub_diag, O by lia. reflexivity.
    + rewrite <- Ei. reflexivity.
  - cbn [andb]. unfold path_to, is_open. cbn. rewrite (find_path_ok scr U _ nf (clear_clear scr)), (proj2 (nth_error_None order nf)), Nat.sub_diag, O by lia. reflexivity.
Qed.
Lemma index_closed_ok : forall (s : state) i, i < nf -> is_open s = false -> back s = None -> clear_focus (s_screen s) = clear_focus scr ->
  (forall p, nth_error order i = Some p -> s_cur s = i -> s_path s = [] \/ s_path s = 0 :: p) -> closed_ok i (fst (focus_index i s)).
Proof.
  intros s i L O B E C. destruct (nth_error order i) as [p|] eqn:N; [|apply nth_error_None in N; lia].
  rewrite (index_closed s i p O E N (C p eq_refl)). split; [exact O|]. split; [exact B|]. split; [reflexivity|]. exists p. auto.
Qed.
Lemma closed_clear : forall i s, closed_ok i s -> clear_focus (s_screen s) = clear_focus scr /\ i < nf.
Proof.
  intros i s (_ & _ & _ & p & N & -> & _). split; [apply (clear_only scr U), (nth_error_In _ _ N)|]. apply nth_error_Some. congruence.
Qed.
Lemma palette_ok : forall (s : state) f, is_open s = true -> back s = Some f -> f <= nf -> clear_focus (s_screen s) = clear_focus scr ->
  (s_cur s = nf -> s_path s = [] \/ s_path s = [2]) -> open_ok f (focus_id palette_id s).
Proof.
  intros s f O B L E C. unfold focus_id. rewrite (find_palette scr U _ E), O. assert (text_eqb palette_id palette_id = true) as -> by (apply text_eqb_iff; reflexivity).
  cbn [andb]. rewrite (index_open s O E C). repeat split; auto.
Qed.

(** *** One action *)
Lemma act_fits : forall b s a, fits s -> fits (act b s a).
Proof.
  intros b s a F. unfold act, fits. destruct (on_action a (s_world s)) as [[h w] f].
  set (s1 := hear (Act b a h) (with_world w s)).
  set (s2 := match f with Some id => focus_id id s1 | None => s1 end).
  assert (B : s_palette s2 = s_palette s) by (unfold s2; destruct f as [t|]; [destruct (beside_id W P t s1) as (_ & -> & _); reflexivity|reflexivity]).
  clearbody s2. destruct h; [rewrite B; exact F|]. destruct (quits a); [cbn; rewrite B; exact F|].
  destruct (submits a); [cbn [with_palette s_palette]; rewrite B; apply Palette_Proofs.step_fit, F|]. destruct (opens a); [|rewrite B; exact F].
  match goal with |- context [focus_id palette_id ?x] => destruct (beside_id W P palette_id x) as (_ & C2 & _) end. rewrite C2. cbn [with_palette s_palette]. rewrite B.
  apply Palette_Proofs.step_fit, Palette_Proofs.step_fit, F.
Qed.
Lemma submit_neither : ~ opener (Palette_Model.Submit P) /\ Palette_Model.Submit P <> Palette_Model.TakeRestore P.
Proof. split; [intros []|discriminate]. Qed.
Lemma set_neither : forall x, ~ opener (Palette_Model.SetProviders P x) /\ ~ closer (Palette_Model.SetProviders P x) /\ Palette_Model.SetProviders P x <> Palette_Model.TakeRestore P.
Proof. intros x. repeat split; [intros []|intros []|discriminate]. Qed.
Lemma open_again : forall p ps f, fit p -> vis (pstep (pstep p (Palette_Model.SetProviders P ps)) (Palette_Model.OpenFocus P f)) = true /\
  Palette_Model.restore_focus P (pstep (pstep p (Palette_Model.SetProviders P ps)) (Palette_Model.OpenFocus P f)) = if vis p then Palette_Model.restore_focus P p else Some f.
Proof.
  intros p ps f F. destruct (set_neither ps) as (N1 & N2 & N3). pose proof (Palette_Proofs.step_fit P ask p (Palette_Model.SetProviders P ps) F) as F'.
  destruct (open_step P ask _ f F') as [A B]. split; [exact A|]. rewrite B.
  assert (vis (pstep p (Palette_Model.SetProviders P ps)) = vis p) as ->.
  { destruct (vis p) eqn:V; [apply step_stays_open|apply step_stays_closed]; auto. }
  destruct (vis p); [|reflexivity]. apply step_keeps_restore; auto.
Qed.
Definition acted (b : bool) (s : state) (a : text) : Prop :=
  (forall i, closed_ok i s -> closed_ok i (act b s a) \/ (open_ok i (act b s a) /\ fst (fst (on_action a (s_world s))) = false /\ opens a = true)) /\
  (forall f, open_ok f s -> open_ok f (act b s a) \/ shut_ok f (act b s a)) /\
  (forall f, shut_ok f s -> shut_ok f (act b s a) \/ (open_ok nf (act b s a) /\ fst (fst (on_action a (s_world s))) = false /\ opens a = true)).
Lemma act_acted : forall b s a, fits s -> acted b s a.
Proof.
  intros b s a F. unfold acted, act. pose proof (Calm a (s_world s)) as C. destruct (on_action a (s_world s)) as [[h w] f]. cbn [snd fst] in *. subst f.
  set (s1 := hear (Act b a h) (with_world w s)).
  assert (S1 : (forall i, closed_ok i s -> closed_ok i s1) /\ (forall i, open_ok i s -> open_ok i s1) /\ (forall i, shut_ok i s -> shut_ok i s1)) by (split; [|split]; intros i H; exact H).
  assert (P1 : s_palette s1 = s_palette s) by reflexivity.
  destruct S1 as (S1 & S2 & S3). destruct h; [split; [|split]; auto|]. destruct (quits a); [split; [|split]; intros i H; [left; exact (S1 i H)|left; exact (S2 i H)|left; exact (S3 i H)]|].
  destruct (submits a).
  { destruct submit_neither as [N1 N2]. pose proof (step_keeps_restore P ask (s_palette s) (Palette_Model.Submit P) F N1 N2) as K. split; [|split].
    - intros i (A1 & A2 & A3 & p & A4 & A5 & A6). left. split; [apply step_stays_closed; assumption|]. split; [cbn [with_palette s_palette]; rewrite P1, K; exact A2|]. split; [exact A3|].
      exists p. auto.
    - intros i (A1 & A2 & A3 & A4 & A5 & A6 & A7). destruct (vis (pstep (s_palette s) (Palette_Model.Submit P))) eqn:V; [left|right]; repeat split; try assumption.
      + cbn [with_palette s_palette]. rewrite P1, K. exact A2.
      + cbn [with_palette s_palette]. rewrite P1, K. exact A2.
    - intros i (A1 & A2 & A3 & A4 & A5 & A6). left. repeat split; try assumption.
      + apply step_stays_closed; assumption.
      + cbn [with_palette s_palette]. rewrite P1, K. exact A2. }
  destruct (opens a) eqn:Oa; [|split; [|split]; auto].
  destruct (open_again (s_palette s) (command_providers (s_world s1)) (s_cur s1) F) as [V R].
  split; [|split]; intros i H.
  - right. destruct (closed_clear i s H) as [E L]. destruct H as (A1 & A2 & A3 & p & A4 & A5 & A6). split; [|auto]. apply palette_ok.
    + exact V.
    + cbn [with_palette s_palette]. rewrite P1, R. unfold is_open in A1. rewrite A1. cbn. rewrite A3. reflexivity.
    + lia.
    + exact E.
    + cbn. lia.
  - left. destruct H as (A1 & A2 & A3 & A4 & A5 & A6 & A7). apply palette_ok.
    + exact V.
    + cbn [with_palette s_palette]. rewrite P1, R. unfold is_open in A1. rewrite A1. exact A2.
    + exact A3.
    + cbn. rewrite A5. apply clear_clear.
    + cbn. auto.
  - right. destruct H as (A1 & A2 & A3 & A4 & A5 & A6). split; [|auto]. apply palette_ok.
    + exact V.
    + cbn [with_palette s_palette]. rewrite P1, R. unfold is_open in A1. rewrite A1. cbn. rewrite A4. reflexivity.
    + lia.
    + cbn. rewrite A5. apply clear_clear.
    + cbn. auto.
Qed.

(** *** Several actions *)
Definition mid_ok (s : state) : Prop := (exists i, closed_ok i s) \/ (exists f, open_ok f s) \/ (exists f, shut_ok f s).
Lemma act_mid : forall b s a, fits s -> mid_ok s -> mid_ok (act b s a).
Proof.
  intros b s a F M. destruct (act_acted b s a F) as (A1 & A2 & A3). unfold mid_ok. destruct M as [[i M]|[[i M]|[i M]]].
  - destruct (A1 i M) as [H|[H _]]; eauto.
  - destruct (A2 i M) as [H|H]; eauto.
  - destruct (A3 i M) as [H|[H _]]; eauto.
Qed.
Lemma acts_mid : forall l s, fits s -> mid_ok s -> fits (fold_left (act false) l s) /\ mid_ok (fold_left (act false) l s).
Proof.
  induction l as [|a l IH]; intros s F M; [auto|]. cbn [fold_left]. apply IH; [apply act_fits, F|apply act_mid; assumption].
Qed.
Lemma acts_track : forall f l s, fits s -> open_ok f s \/ shut_ok f s -> exists hs, s_heard (fold_left (act false) l s) = s_heard s ++ hs /\
  ((open_ok f (fold_left (act false) l s) \/ shut_ok f (fold_left (act false) l s)) \/ Exists reopens hs).
Proof.
  intros f l. induction l as [|a l IH]; intros s F M.
  - exists []. rewrite app_nil_r. auto.
  - cbn [fold_left]. destruct (act_hears W P ask on_action command_providers false s a) as [H _]. cbn zeta in H. pose proof (act_fits false s a F) as F'.
    destruct (act_acted false s a F) as (_ & A2 & A3). set (h := fst (fst (on_action a (s_world s)))) in *.
    assert (K : (open_ok f (act false s a) \/ shut_ok f (act false s a)) \/ reopens (Act false a h)).
    { destruct M as [M|M]; [left; apply A2, M|]. destruct (A3 f M) as [X|(_ & X1 & X2)]; [auto|]. right. rewrite X1. cbn [reopens]. exact (proj1 (opens_iff a) X2). }
    destruct K as [K|K].
    + destruct (IH _ F' K) as (hs & H1 & H2). exists (Act false a h :: hs). rewrite H1, H, <- app_assoc. split; [reflexivity|].
      destruct H2 as [H2|H2]; [auto|]. right. apply Exists_cons. auto.
    + destruct (acts_hear W P ask on_action command_providers l (act false s a)) as (hs & H1 & _). exists (Act false a h :: hs). rewrite H1, H, <- app_assoc. split; [reflexivity|]. right. left. exact K.
Qed.

(** *** A step of the palette *)
Definition put (l : Palette_Model.label P) (s : state) : state := with_palette (pstep (s_palette s) l) s.
Lemma put_fits : forall l s, fits s -> fits (put l s). Proof. intros l s F. apply Palette_Proofs.step_fit, F. Qed.
Lemma put_ok : forall l s, fits s -> ~ opener l -> l <> Palette_Model.TakeRestore P ->
  (forall i, closed_ok i s -> closed_ok i (put l s)) /\
  (forall f, open_ok f s -> (~ closer l -> open_ok f (put l s)) /\ (open_ok f (put l s) \/ shut_ok f (put l s))) /\
  (forall f, shut_ok f s -> shut_ok f (put l s)) /\ (lost_ok s -> lost_ok (put l s)).
Proof.
  intros l s F O T. pose proof (step_keeps_restore P ask (s_palette s) l F O T) as K. split; [|split; [|split]].
  - intros i (A1 & A2 & A3 & A4). split; [apply step_stays_closed; assumption|]. split; [cbn [put with_palette s_palette]; rewrite K; exact A2|]. auto.
  - intros f (A1 & A2 & A3 & A4 & A5 & A6 & A7).
    assert (Y : vis (pstep (s_palette s) l) = true -> open_ok f (put l s)).
    { intros V. split; [exact V|]. split; [cbn [put with_palette s_palette]; rewrite K; exact A2|]. auto. }
    split; [intros C; apply Y, step_stays_open; assumption|]. destruct (vis (pstep (s_palette s) l)) eqn:V; [left; apply Y; reflexivity|right].
    split; [exact V|]. split; [cbn [put with_palette s_palette]; rewrite K; exact A2|]. auto.
  - intros f (A1 & A2 & A3 & A4 & A5 & A6). split; [apply step_stays_closed; assumption|]. split; [cbn [put with_palette s_palette]; rewrite K; exact A2|]. auto.
  - intros (A1 & A2 & A3). split; [apply step_stays_closed; assumption|]. split; [cbn [put with_palette s_palette]; rewrite K; exact A2|]. auto.
Qed.
(** nothing that matters here is touched *)
Definition same (s s' : state) : Prop := fits s' /\ (forall i, closed_ok i s -> closed_ok i s') /\ (forall f, open_ok f s -> open_ok f s') /\ (forall f, shut_ok f s -> shut_ok f s') /\ (lost_ok s -> lost_ok s').
Lemma put_same : forall l s, fits s -> ~ opener l -> ~ closer l -> l <> Palette_Model.TakeRestore P -> same s (put l s).
Proof.
  intros l s F O C T. destruct (put_ok l s F O T) as (A1 & A2 & A3 & A4). split; [apply put_fits, F|]. split; [exact A1|]. split; [|split; assumption].
  intros f H. apply A2; assumption.
Qed.
Lemma same_trans : forall s s' s'', same s s' -> same s' s'' -> same s s''.
Proof. intros s s' s'' (A0 & A1 & A2 & A3 & A4) (B0 & B1 & B2 & B3 & B4). split; [exact B0|]. split; [auto|]. split; [auto|]. split; auto. Qed.
Lemma same_world : forall w s, fits s -> same s (with_world w s).
Proof. intros w s F. split; [exact F|]. split; [intros i H; exact H|]. split; [intros i H; exact H|]. split; [intros i H; exact H|]. intros H; exact H. Qed.
Lemma drain_same : forall s, fits s -> same s (drain s).
Proof.
  intros s F. assert (A : same s (put (Palette_Model.Drain P) s)) by (apply put_same; [exact F|intros []|intros []|discriminate]).
  eapply same_trans; [exact A|]. change (drain s) with (put (Palette_Model.TakeEvents P) (put (Palette_Model.Drain P) s)).
  apply put_same; [apply A|intros []|intros []|discriminate].
Qed.
Lemma tell_same : forall b k s, fits s -> same s (tell_app b k s).
Proof.
  intros b k s F. unfold tell_app. destruct b; [|destruct (on_key k (s_world s))]; (split; [exact F|]; split; [intros i H; exact H|]; split; [intros i H; exact H|]; split; [intros i H; exact H|]; intros H; exact H).
Qed.

Lemma actions_mid : forall s, fits s -> mid_ok s -> fits (actions s) /\ mid_ok (actions s).
Proof.
  intros s F M. unfold actions. destruct (asked (s_world s)) as [l w].
  assert (A : same s (put (Palette_Model.TakeAction P) (with_world w s))).
  { eapply same_trans; [apply same_world, F|]. apply put_same; [exact F|intros []|intros []|discriminate]. }
  destruct A as (A0 & A1 & A2 & A3 & _). apply acts_mid; [exact A0|]. destruct M as [[i M]|[[i M]|[i M]]]; unfold mid_ok; eauto.
Qed.
Lemma actions_track : forall f s, fits s -> open_ok f s \/ shut_ok f s -> exists hs, s_heard (actions s) = s_heard s ++ hs /\
  ((open_ok f (actions s) \/ shut_ok f (actions s)) \/ Exists reopens hs).
Proof.
  intros f s F M. unfold actions. destruct (asked (s_world s)) as [l w].
  assert (A : same s (put (Palette_Model.TakeAction P) (with_world w s))).
  { eapply same_trans; [apply same_world, F|]. apply put_same; [exact F|intros []|intros []|discriminate]. }
  destruct A as (A0 & _ & A2 & A3 & _).
  match goal with |- context [fold_left (act false) ?l _] => apply (acts_track f l (put (Palette_Model.TakeAction P) (with_world w s)) A0) end. destruct M as [M|M]; auto.
Qed.
Lemma give_back_ok : forall s, fits s -> fits (give_back s) /\ (forall i, closed_ok i s -> closed_ok i (give_back s)) /\
  (forall f, open_ok f s -> open_ok f (give_back s)) /\ (forall f, shut_ok f s -> (f < nf /\ closed_ok f (give_back s)) \/ (f = nf /\ lost_ok (give_back s))).
Proof.
  intros s F. unfold give_back. split; [|split; [|split]].
  - destruct (is_open s); [exact F|]. destruct (back s) as [f|]; [|exact F].
    match goal with |- fits (fst (focus_index ?i ?x)) => destruct (beside_index W P i x) as (_ & B & _) end. unfold fits. rewrite B. apply Palette_Proofs.step_fit, F.
  - intros i H. pose proof H as (A1 & A2 & A3). rewrite A1, A2. exact H.
  - intros f H. rewrite (proj1 H). exact H.
  - intros f (A1 & A2 & A3 & A4 & A5 & A6). rewrite A1, A2.
    set (s1 := with_palette (pstep (s_palette s) (Palette_Model.TakeRestore P)) s).
    assert (O1 : is_open s1 = false) by (apply step_stays_closed; [exact F|exact A1|intros []]).
    assert (B1 : back s1 = None) by (cbn; unfold is_open in A1; rewrite A1; reflexivity).
    assert (E1 : clear_focus (s_screen s1) = clear_focus scr) by (cbn; rewrite A5; apply clear_clear).
    destruct (Nat.eq_dec f nf) as [->|Nf]; [right|left].
    + split; [reflexivity|]. unfold focus_index. destruct (counts s1 E1) as (_ & C2 & _). rewrite C2, O1, Nat.add_0_r. pose proof (n_pos scr U).
      destruct (Nat.eqb_spec nf 0); [lia|]. rewrite Nat.leb_refl. repeat split; assumption.
    + split; [lia|]. apply index_closed_ok; try assumption; [lia|]. cbn. intros; lia.
Qed.
Lemma settle_ok : forall s, fits s -> fits (settle s) /\ (forall i, closed_ok i s -> closed_ok i (settle s)) /\
  (forall f, open_ok f s -> open_ok f (settle s)) /\ (lost_ok s -> closed_ok 0 (settle s)).
Proof.
  intros s F. split; [|split; [|split]].
  - unfold fits. destruct (beside_settle W P s) as (_ & -> & _). exact F.
  - intros i H. pose proof H as (A1 & A2 & A3 & p & A4 & A5 & A6). unfold settle, can_focus. rewrite A5, A6. unfold Keypress_Proofs.only. rewrite follow_update_same.
    destruct (order_leaf scr p (nth_error_In _ _ A4)) as (d & -> & D). cbn. rewrite D. exact H.
  - intros f H. pose proof H as (A1 & A2 & A3 & A4 & A5 & A6 & A7). unfold settle, can_focus. rewrite A6, A1. exact H.
  - intros (A1 & A2 & A3 & A4 & A5). unfold settle, can_focus. rewrite A5, A1. pose proof (n_pos scr U). apply index_closed_ok; try assumption; [rewrite A4; apply clear_clear|intros; lia].
Qed.
Lemma move_ok : forall k s, fits s -> fits (move k s) /\ (forall i, closed_ok i s -> closed_ok (moved k nf i) (move k s)) /\ (forall f, open_ok f s -> move k s = s).
Proof.
  intros k s F. split; [|split].
  - unfold fits. destruct (beside_move W P k s) as (_ & -> & _). exact F.
  - intros i H. destruct (closed_clear i s H) as [E L]. pose proof H as (A1 & A2 & A3 & p & A4 & A5 & A6). destruct (counts s E) as (_ & C2 & _). rewrite A1, Nat.add_0_r in C2.
    assert (K : forall j, j < nf -> closed_ok j (fst (focus_index j s))).
    { intros j Lj. apply index_closed_ok; try assumption. intros q Hq Hj. rewrite A3 in Hj. subst j. right. congruence. }
    unfold move. rewrite A1. destruct k; try exact H; unfold next, previous, moved; rewrite C2; destruct (Nat.eqb_spec nf 0) as [Z|Z]; try lia; rewrite A3.
    + apply K, Nat.mod_upper_bound. exact Z.
    + assert ((i + nf - 1) mod nf = if i =? 0 then nf - 1 else i - 1) as ->.
      { destruct (Nat.eqb_spec i 0) as [->|Ni]; [rewrite Nat.mod_small; lia|].
        replace (i + nf - 1) with ((i - 1) + 1 * nf) by lia. rewrite Nat.mod_add by exact Z. apply Nat.mod_small. lia. }
      apply K. destruct (Nat.eqb_spec i 0); lia.
  - intros f (A1 & _). unfold move. rewrite A1. reflexivity.
Qed.
Lemma label_neither : forall k p, ~ opener (palette_label typed k p) /\ palette_label typed k p <> Palette_Model.TakeRestore P.
Proof. intros k p. split; destruct k; cbn; try tauto; discriminate. Qed.
Lemma dispatch_ok : forall k s, fits s -> (forall i, closed_ok i s -> fits (dispatch k s) /\ closed_ok i (dispatch k s)) /\
  (forall f, open_ok f s -> fits (dispatch k s) /\ (open_ok f (dispatch k s) \/ shut_ok f (dispatch k s))).
Proof.
  intros k s F. split.
  - intros i H. pose proof H as (A1 & A2 & A3 & p & A4 & A5 & A6). unfold dispatch. rewrite A6. destruct (follow (s_screen s) p); [|auto]. split; [exact F|exact H].
  - intros f H. pose proof H as (A1 & A2 & A3 & A4 & A5 & A6 & A7). unfold dispatch. rewrite A6, A1. destruct (label_neither k (s_palette s)) as [N1 N2].
    set (l := palette_label typed k (s_palette s)) in *. destruct (put_ok l (hear (ToPalette k) s) F N1 N2) as (_ & B & _).
    split; [apply (put_fits l (hear (ToPalette k) s)), F|]. apply (B f H).
Qed.

(** *** One happening *)
Definition at_ok (s : state) : Prop := (exists i, closed_ok i s) \/ (exists f, open_ok f s).
Lemma after_mid : forall s, fits s -> mid_ok s -> fits (drain (give_back s)) /\ (at_ok (drain (give_back s)) \/ lost_ok (drain (give_back s))).
Proof.
  intros s F M. destruct (give_back_ok s F) as (G0 & G1 & G2 & G3). destruct (drain_same (give_back s) G0) as (D0 & D1 & D2 & _ & D4). split; [exact D0|]. unfold at_ok.
  destruct M as [[i M]|[[i M]|[i M]]]; [left; left; exists i; auto|left; right; exists i; auto|]. destruct (G3 i M) as [[_ H]|[_ H]]; [left; left; exists i; auto|right; auto].
Qed.
Lemma key_open : forall f s, fits s -> open_ok f s -> open_ok f (act true s (str "app.command_palette")).
Proof.
  intros i s F A. unfold act. pose proof (Calm (str "app.command_palette") (s_world s)) as C.
  destruct (on_action (str "app.command_palette") (s_world s)) as [[h w] f]. cbn [snd] in C. subst f. destruct h; [exact A|].
  change (quits (str "app.command_palette")) with false. change (submits (str "app.command_palette")) with false. change (opens (str "app.command_palette")) with true. cbn iota.
  destruct A as (B1 & B2 & B3 & B4 & B5 & B6 & B7).
  match goal with |- context [Palette_Model.SetProviders P ?x] => destruct (open_again (s_palette s) x (s_cur s) F) as [V R] end.
  apply palette_ok; [exact V| |exact B3|cbn; rewrite B5; apply clear_clear|cbn; auto]. cbn [with_palette s_palette hear with_world]. unfold is_open in B1. rewrite B1 in R.
  change (s_cur (hear (Act true (str "app.command_palette") false) (with_world w s))) with (s_cur s). rewrite R. exact B2.
Qed.
Lemma press_ok : forall e s, fits s -> at_ok s -> fits (press e s) /\ (at_ok (press e s) \/ lost_ok (press e s)).
Proof.
  intros e s F A. unfold press. destruct (system e).
  - pose proof (act_fits true s (str "app.command_palette") F) as F'. destruct (drain_same _ F') as (D0 & D1 & D2 & D3 & D4). split; [exact D0|]. left. unfold at_ok.
    destruct (act_acted true s (str "app.command_palette") F) as (A1 & A2 & A3). destruct A as [[i A]|[i A]].
    + destruct (A1 i A) as [H|[H _]]; eauto.
    + right. exists i. apply D2, key_open; assumption.
  - set (k := Keys_Model.k_code e). destruct (move_ok k s F) as (M0 & M1 & M2). destruct (dispatch_ok k (move k s) M0) as [D1 D2].
    assert (X : fits (dispatch k (move k s)) /\ mid_ok (dispatch k (move k s))).
    { unfold mid_ok. destruct A as [[i A]|[f A]].
      - destruct (D1 _ (M1 i A)). eauto.
      - rewrite <- (M2 f A) in A. destruct (D2 f A) as [X1 [X2|X2]]; eauto. }
    destruct X as [X1 X2]. destruct (tell_same (is_open s) k _ X1) as (T0 & T1 & T2 & T3 & _).
    assert (X3 : mid_ok (tell_app (is_open s) k (dispatch k (move k s)))) by (unfold mid_ok; destruct X2 as [[i H]|[[i H]|[i H]]]; eauto).
    destruct (actions_mid _ T0 X3) as [Y1 Y2]. apply after_mid; assumption.
Qed.
Lemma click_ok : forall l s, fits s -> at_ok s -> ~ opener l -> l <> Palette_Model.TakeRestore P -> fits (click l s) /\ (at_ok (click l s) \/ lost_ok (click l s)).
Proof.
  intros l s F A O T. unfold click. destruct (is_open s) eqn:V; [|auto]. destruct A as [[i A]|[f A]]; [destruct A; congruence|].
  destruct (put_ok l s F O T) as (_ & B & _). fold (put l s).
  assert (X : mid_ok (put l s)) by (unfold mid_ok; destruct (proj2 (B f A)); eauto).
  destruct (actions_mid _ (put_fits l s F) X) as [Y1 Y2]. apply after_mid; assumption.
Qed.
Lemma same_at : forall s s', same s s' -> at_ok s -> fits s' /\ (at_ok s' \/ lost_ok s').
Proof. intros s s' (A0 & A1 & A2 & _) A. split; [exact A0|]. left. unfold at_ok. destruct A as [[i A]|[i A]]; eauto. Qed.
Lemma handle_ok : forall e s, fits s -> at_ok s -> fits (handle s e) /\ (at_ok (handle s e) \/ lost_ok (handle s e)).
Proof.
  intros e s F A. destruct e; cbn [handle].
  - apply press_ok; assumption.
  - apply click_ok; try assumption; [intros []|discriminate].
  - apply click_ok; try assumption; [intros []|discriminate].
  - apply (same_at s); [|exact A]. apply put_same; [exact F|intros []|intros []|discriminate].
  - apply (same_at s); [|exact A]. apply put_same; [exact F|intros []|intros []|discriminate].
  - apply (same_at s); [|exact A]. apply drain_same, F.
  - apply (same_at s); [|exact A]. eapply same_trans; [apply same_world, F|]. apply drain_same, F.
Qed.
Definition good (s : state) : Prop := s_quit s = true \/ (fits s /\ at_ok s).
Lemma turn_ok : forall e s, good s -> good (turn s e).
Proof.
  intros e s G. unfold turn. destruct (s_quit s) eqn:Q; [left; exact Q|]. destruct G as [G|[F A]]; [congruence|]. destruct (handle_ok e s F A) as [F' A'].
  destruct (s_quit (handle s e)) eqn:Q'; [left; exact Q'|]. right. destruct (settle_ok _ F') as (S0 & S1 & S2 & S3). split; [exact S0|]. unfold at_ok.
  destruct A' as [[[i A']|[f A']]|A']; [left; exists i; auto|right; exists f; auto|left; exists 0; auto].
Qed.
Lemma turns_ok : forall es s, good s -> good (turns s es).
Proof. induction es as [|e es IH]; intros s G; [exact G|]. cbn [turns fold_left]. apply IH, turn_ok, G. Qed.
Lemma start_ok : forall w, good (start (P := P) scr w).
Proof.
  intros w. right. unfold start. pose proof (n_pos scr U) as Hn. set (s0 := State scr [] 0 (Palette_Model.palette_new P true) false w false []).
  assert (E : clear_focus (s_screen s0) = clear_focus scr) by reflexivity.
  assert (F0 : fits s0) by (apply (Palette_Proofs.reachable_fit P ask [])).
  destruct (nth_error order 0) as [p|] eqn:N; [|apply nth_error_None in N; lia].
  assert (K : closed_ok 0 (refocus 0 (fst (focus_at 0 (clear s0))))).
  { pose proof (index_closed_ok s0 0 Hn eq_refl eq_refl E) as X. unfold focus_index in X. destruct (counts s0 E) as (C1 & C2 & C3).
    assert (count s0 =? 0 = false) as Y1 by (rewrite C2; apply Nat.eqb_neq; lia). rewrite Y1 in X.
    assert (count s0 <=? 0 = false) as Y2 by (rewrite C2; apply Nat.leb_gt; lia). rewrite Y2 in X.
    assert (Y3 : snd (focus_at 0 (clear s0)) = true).
    { unfold focus_at. rewrite (counts_clear s0 E). destruct (Nat.ltb_spec 0 nf); [|lia]. rewrite C3. cbn [s_screen with_focus]. rewrite (focus_nth_ok scr 0 p N). reflexivity. }
    destruct (focus_at 0 (clear s0)) as [s1 b]. cbn [snd] in Y3. subst b. apply X. intros; left; reflexivity. }
  assert (F1 : fits (refocus 0 (fst (focus_at 0 (clear s0))))).
  { unfold fits. destruct (beside_refocus W P 0 (fst (focus_at 0 (clear s0)))) as (_ & -> & _). destruct (heard_focus_at W P 0 (clear s0)) as (_ & -> & _). exact F0. }
  destruct (settle_ok _ F1) as (S0 & S1 & _). split; [exact S0|]. left. exists 0. auto.
Qed.

(** *** There and back *)
Lemma after_track : forall f s, f < nf -> fits s -> open_ok f s \/ shut_ok f s -> open_ok f (drain (give_back s)) \/ closed_ok f (drain (give_back s)).
Proof.
  intros f s L F M. destruct (give_back_ok s F) as (G0 & G1 & G2 & G3). destruct (drain_same (give_back s) G0) as (D0 & D1 & D2 & _ & D4).
  destruct M as [M|M]; [left; auto|]. destruct (G3 f M) as [[_ H]|[H _]]; [right; auto|lia].
Qed.
Lemma acts_fits : forall l s, fits s -> fits (fold_left (act false) l s).
Proof. induction l as [|a l IH]; intros s F; [exact F|]. cbn [fold_left]. apply IH, act_fits, F. Qed.
Lemma actions_fits : forall s, fits s -> fits (actions s).
Proof.
  intros s F. unfold actions. destruct (asked (s_world s)) as [l w]. apply acts_fits. apply Palette_Proofs.step_fit, F.
Qed.
Lemma tail_track : forall f s, f < nf -> fits s -> open_ok f s \/ shut_ok f s -> exists hs, s_heard (drain (give_back (actions s))) = s_heard s ++ hs /\
  ((open_ok f (drain (give_back (actions s))) \/ closed_ok f (drain (give_back (actions s)))) \/ Exists reopens hs).
Proof.
  intros f s L F M. destruct (actions_track f s F M) as (hs & H1 & H2). exists hs. split.
  - cbn [drain with_palette s_heard]. destruct (give_back_beside W P ask (actions s)) as [-> _]. exact H1.
  - destruct H2 as [H2|H2]; [left|right; exact H2]. apply after_track; [exact L|apply actions_fits, F|exact H2].
Qed.
Lemma press_track : forall f e s, f < nf -> fits s -> open_ok f s -> exists hs, s_heard (press e s) = s_heard s ++ hs /\
  ((open_ok f (press e s) \/ closed_ok f (press e s)) \/ Exists reopens hs).
Proof.
  intros f e s L F A. destruct (system e) eqn:Se.
  - destruct (press_system W Msg P ask system widget_key screen_key deliver typed asked on_action on_key command_providers e s Se) as (h & H). eexists. split; [exact H|]. left. left.
    unfold press. rewrite Se. apply (drain_same _ (act_fits true s _ F)), key_open; assumption.
  - unfold press. rewrite Se. set (k := Keys_Model.k_code e). destruct (move_ok k s F) as (_ & _ & M2). rewrite (M2 f A), (proj1 A). unfold tell_app.
    destruct (dispatch_ok k s F) as [_ D2]. destruct (D2 f A) as [X1 X2]. destruct (tail_track f _ L X1 X2) as (hs & H1 & H2).
    destruct (dispatch_hears W Msg P ask widget_key screen_key deliver typed k s) as [D _]. exists (dispatched W P k s ++ hs). rewrite H1, D, <- app_assoc. split; [reflexivity|].
    destruct H2 as [H2|H2]; [auto|]. right. apply Exists_app. auto.
Qed.
Lemma click_track : forall f l s, f < nf -> fits s -> open_ok f s -> ~ opener l -> l <> Palette_Model.TakeRestore P -> exists hs, s_heard (click l s) = s_heard s ++ hs /\
  ((open_ok f (click l s) \/ closed_ok f (click l s)) \/ Exists reopens hs).
Proof.
  intros f l s L F A O T. unfold click. rewrite (proj1 A). destruct (put_ok l s F O T) as (_ & B & _). fold (put l s).
  destruct (tail_track f (put l s) L (put_fits l s F) (proj2 (B f A))) as (hs & H1 & H2). exists hs. auto.
Qed.
Lemma handle_track : forall f e s, f < nf -> fits s -> open_ok f s -> exists hs, s_heard (handle s e) = s_heard s ++ hs /\
  ((open_ok f (handle s e) \/ closed_ok f (handle s e)) \/ Exists reopens hs).
Proof.
  intros f e s L F A.
  assert (K : forall s', same s s' -> s_heard s' = s_heard s -> exists hs, s_heard s' = s_heard s ++ hs /\ ((open_ok f s' \/ closed_ok f s') \/ Exists reopens hs)).
  { intros s' (_ & _ & S2 & _) H. exists []. rewrite app_nil_r. split; [exact H|]. left. left. apply S2, A. }
  destruct e; cbn [handle].
  - apply press_track; assumption.
  - apply click_track; try assumption; [intros []|discriminate].
  - apply click_track; try assumption; [intros []|discriminate].
  - apply K; [|reflexivity]. apply put_same; [exact F|intros []|intros []|discriminate].
  - apply K; [|reflexivity]. apply put_same; [exact F|intros []|intros []|discriminate].
  - apply K; [|reflexivity]. apply drain_same, F.
  - apply K; [|reflexivity]. eapply same_trans; [apply same_world, F|]. apply drain_same, F.
Qed.
Lemma quit_stays : forall es s, s_quit s = true -> turns s es = s.
Proof. induction es as [|e es IH]; intros s Q; [reflexivity|]. cbn [turns fold_left]. assert (turn s e = s) as -> by (unfold turn; rewrite Q; reflexivity). apply IH, Q. Qed.
Lemma press_grows : forall e s, exists hs, s_heard (press e s) = s_heard s ++ hs.
Proof.
  intros e s. destruct (system e) eqn:Se.
  - destruct (press_system W Msg P ask system widget_key screen_key deliver typed asked on_action on_key command_providers e s Se) as (h & H). eauto.
  - destruct (press_hears W Msg P ask system widget_key screen_key deliver typed asked on_action on_key command_providers e s Se) as (h & H & _). eauto.
Qed.
Lemma click_grows : forall l s, exists hs, s_heard (click l s) = s_heard s ++ hs.
Proof.
  intros l s. unfold click. destruct (is_open s); [|exists []; rewrite app_nil_r; reflexivity]. cbn [drain with_palette s_heard].
  match goal with |- context [give_back (actions ?x)] => destruct (give_back_beside W P ask (actions x)) as [-> _]; destruct (actions_hear W P ask asked on_action command_providers x) as (hs & H & _) end.
  exists hs. exact H.
Qed.
Lemma turn_grows : forall e s, exists hs, s_heard (turn s e) = s_heard s ++ hs.
Proof.
  intros e s. unfold turn. assert (N : exists hs, s_heard s = s_heard s ++ hs) by (exists []; rewrite app_nil_r; reflexivity). destruct (s_quit s); [exact N|].
  assert (K : exists hs, s_heard (handle s e) = s_heard s ++ hs).
  { destruct e; cbn [handle]; [apply press_grows|apply click_grows|apply click_grows|exact N|exact N|exact N|exact N]. }
  destruct (s_quit (handle s e)); [exact K|]. destruct (beside_settle W P (handle s e)) as (-> & _). exact K.
Qed.
Lemma turns_grow : forall es s, exists hs, s_heard (turns s es) = s_heard s ++ hs.
Proof.
  induction es as [|e es IH]; intros s; [exists []; rewrite app_nil_r; reflexivity|]. cbn [turns fold_left]. destruct (IH (turn s e)) as (hs & H). destruct (turn_grows e s) as (hs' & H').
  exists (hs' ++ hs). unfold turns in H. rewrite H, H', <- app_assoc. reflexivity.
Qed.
Lemma turns_track : forall f es s, f < nf -> fits s -> open_ok f s -> s_quit (turns s es) = false ->
  (forall a b, es = a ++ b -> b <> [] -> is_open (turns s a) = true) -> exists hs, s_heard (turns s es) = s_heard s ++ hs /\
  ((open_ok f (turns s es) \/ closed_ok f (turns s es)) \/ Exists reopens hs).
Proof.
  intros f. induction es as [|e es IH]; intros s L F A Q O.
  - exists []. rewrite app_nil_r. auto.
  - change (turns s (e :: es)) with (turns (turn s e) es) in *. assert (Q1 : s_quit (turn s e) = false).
    { destruct (s_quit (turn s e)) eqn:Q1; [|reflexivity]. rewrite (quit_stays es _ Q1) in Q. congruence. }
    assert (Q0 : s_quit s = false). { destruct (s_quit s) eqn:Q0; [|reflexivity]. unfold turn in Q1. rewrite Q0 in Q1. congruence. }
    destruct (handle_track f e s L F A) as (hs & H1 & H2). destruct (handle_ok e s F (or_intror (ex_intro _ f A))) as [F' _].
    assert (T : turn s e = settle (handle s e)). { unfold turn in Q1 |- *. rewrite Q0 in Q1 |- *. destruct (s_quit (handle s e)) eqn:Q2; [congruence|reflexivity]. }
    destruct (settle_ok _ F') as (S0 & S1 & S2 & _). rewrite <- T in S0, S1, S2.
    assert (H3 : s_heard (turn s e) = s_heard s ++ hs) by (rewrite T; destruct (beside_settle W P (handle s e)) as (-> & _); exact H1).
    destruct H2 as [H2|H2].
    + assert (H4 : open_ok f (turn s e) \/ closed_ok f (turn s e)) by (destruct H2; auto). destruct es as [|e2 es2].
      * exists hs. split; [exact H3|]. left. exact H4.
      * assert (V : is_open (turn s e) = true) by (apply (O [e] (e2 :: es2)); [reflexivity|discriminate]).
        destruct H4 as [H4|[H4 _]]; [|congruence]. destruct (IH (turn s e) L S0 H4 Q) as (hs2 & I1 & I2).
        { intros a b E B. apply (O (e :: a) b); [rewrite E; reflexivity|exact B]. }
        exists (hs ++ hs2). rewrite I1, H3, <- app_assoc. split; [reflexivity|]. destruct I2 as [I2|I2]; [auto|right; apply Exists_app; auto].
    + destruct (turns_grow es (turn s e)) as (hs2 & I1). exists (hs ++ hs2). rewrite I1, H3, <- app_assoc. split; [reflexivity|]. right. apply Exists_app. auto.
Qed.
End Where.

(** *** A screen on which nothing can have the focus *)
Lemma act_opens : forall (W P : Type) (ask : P -> text -> list Palette_Model.hit) on_action (command_providers : W -> list P) b (s : state W P) a w,
  on_action a (s_world s) = (false, w, None) -> quits a = false -> submits a = false -> opens a = true ->
  act ask on_action command_providers b s a = focus_id palette_id (with_palette
    (Palette_Model.step P ask (Palette_Model.step P ask (s_palette s) (Palette_Model.SetProviders P (command_providers w))) (Palette_Model.OpenFocus P (s_cur s)))
    (hear (Act b a false) (with_world w s))).
Proof. intros W P ask on_action cp b s a w H Q S O. unfold act. rewrite H, Q, S, O. reflexivity. Qed.
Section Stuck.
Variables (W Msg P : Type).
Variable ask : P -> text -> list Palette_Model.hit.
Variable system : Keys_Model.event -> bool.
Variable widget_key : list nat -> Keys_Model.code -> W -> W * option Msg.
Variable screen_key : Keys_Model.code -> W -> W * option Msg.
Variable deliver : list nat -> Msg -> W -> W.
Variable typed : Keys_Model.code -> Palette_Model.palette P -> text.
Variable asked : W -> list text * W.
Variable on_key : Keys_Model.code -> W -> W * bool.
Variable command_providers : W -> list P.
Notation state := (state W P).
Notation act := (act ask default_on_action command_providers).
Notation drain := (drain ask).
Notation dispatch := (dispatch ask widget_key screen_key deliver typed).
Notation actions := (actions ask asked default_on_action command_providers).
Notation give_back := (give_back ask).
Notation tell_app := (tell_app on_key).
Notation press := (press ask system widget_key screen_key deliver typed asked default_on_action on_key command_providers).
Notation handle := (handle ask system widget_key screen_key deliver typed asked default_on_action on_key command_providers).
Notation turn := (turn ask system widget_key screen_key deliver typed asked default_on_action on_key command_providers).
Notation turns := (turns ask system widget_key screen_key deliver typed asked default_on_action on_key command_providers).
Notation back s := (Palette_Model.restore_focus P (s_palette s)).
Notation pending s := (Palette_Model.pending_action P (s_palette s)).
Notation fit := (Palette_Proofs.fit P ask).
Notation pstep := (Palette_Model.step P ask).
Notation vis := (Palette_Model.visible P).
Variable scr : widget.
Hypothesis Pas : passive scr.
Hypothesis Asks : forall w, fst (asked w) = [].

Lemma no_items : forall keep, items keep scr = [].
Proof.
  intros keep. unfold items. assert (K : forall q, In q (walk keep scr) -> is_focusable (snd q) = false).
  { intros q H. apply Pas. pose proof (walk_follow keep scr q H) as E. destruct q as [p k]. apply walk_everything, E. }
  induction (walk keep scr) as [|q l IH]; [reflexivity|]. cbn [filter]. rewrite (K q (or_introl eq_refl)). apply IH. intros r R. apply K. right. exact R.
Qed.
Lemma passive_items : forall w, unfocused w = unfocused scr -> focus_order w = [] /\ all_order w = [].
Proof.
  intros w E. rewrite (order_alike w scr E), (all_alike w scr E). unfold focus_order, focus_items, all_order. split.
  - fold (items shown scr). rewrite no_items. reflexivity.
  - rewrite no_items. reflexivity.
Qed.
(** nothing waits to be run, the keys go to the palette's line *)
Definition idle (s : state) : Prop :=
  fit (s_palette s) /\ unfocused (s_screen s) = unfocused scr /\ s_path s = line_path /\ s_cur s = 0 /\ pending s = None /\ (is_open s = false -> back s = None).
Lemma quiet_pending : forall p l, match l with
  | Palette_Model.OpenFocus _ _ | Palette_Model.SetProviders _ _ | Palette_Model.TakeEvents _ | Palette_Model.TakeAction _ | Palette_Model.Advance _ _ | Palette_Model.Finish _ _ | Palette_Model.Drain _ => True
  | _ => False end -> Palette_Model.pending_action P p = None -> Palette_Model.pending_action P (pstep p l) = None.
Proof.
  intros p l L N. destruct l; try contradiction; cbn [Palette_Model.step].
  - unfold Palette_Model.open_with_focus. destruct (vis p); [exact N|].
    match goal with |- context [Palette_Model.start_search P ?q ?x] => destruct (Palette_Proofs.start_rest P q x) as (_ & _ & _ & R4 & _) end. rewrite R4.
    destruct (Palette_Proofs.rest_sync P (Palette_Model.set_visible P true (Palette_Model.set_restore_focus P (Some f) p))) as (_ & _ & _ & S4 & _).
    unfold Palette_Model.enqueue. cbn [Palette_Model.set_events Palette_Model.pending_action]. rewrite S4. exact N.
  - unfold Palette_Model.set_providers_. cbn zeta. match goal with |- context [if ?b then _ else _] => destruct b end; [rewrite Palette_Proofs.rest_action|]; exact N.
  - reflexivity.
  - exact N.
  - exact N.
  - destruct (Palette_Model.take_nth i (Palette_Model.tasks P p)) as [[t r]|]; exact N.
  - assert (F : Palette_Proofs.frame P (fst (Palette_Model.drain_updates P p)) (Palette_Model.set_channel P [] p)) by apply Palette_Proofs.frame_apply_all.
    destruct F as (_ & _ & _ & _ & _ & _ & F7 & _). rewrite F7. exact N.
Qed.
Definition quiet (l : Palette_Model.label P) : Prop := match l with
  | Palette_Model.TakeEvents _ | Palette_Model.TakeAction _ | Palette_Model.Advance _ _ | Palette_Model.Finish _ _ | Palette_Model.Drain _ => True | _ => False end.
Lemma put_idle : forall l (s : state), quiet l -> idle s -> idle (with_palette (pstep (s_palette s) l) s) /\ is_open (with_palette (pstep (s_palette s) l) s) = is_open s.
Proof.
  intros l s Q (A1 & A2 & A3 & A4 & A5 & A6).
  assert (N1 : ~ opener P l) by (destruct l; cbn in *; tauto). assert (N2 : ~ closer P l) by (destruct l; cbn in *; tauto). assert (N3 : l <> Palette_Model.TakeRestore P) by (intros ->; exact Q).
  assert (V : vis (pstep (s_palette s) l) = vis (s_palette s)).
  { destruct (vis (s_palette s)) eqn:V; [apply step_stays_open|apply step_stays_closed]; assumption. }
  split; [|exact V]. split; [apply Palette_Proofs.step_fit, A1|]. split; [exact A2|]. split; [exact A3|]. split; [exact A4|]. split.
  - apply quiet_pending; [destruct l; cbn in *; tauto|exact A5].
  - unfold is_open. cbn [with_palette s_palette]. rewrite V, step_keeps_restore; assumption.
Qed.
Lemma drain_idle : forall s, idle s -> idle (drain s) /\ is_open (drain s) = is_open s.
Proof.
  intros s I0. destruct (put_idle (Palette_Model.Drain P) s I I0) as [I1 O1]. destruct (put_idle (Palette_Model.TakeEvents P) _ I I1) as [I2 O2]. split; [exact I2|]. rewrite <- O1. exact O2.
Qed.
Lemma idle_counts : forall s : state, unfocused (s_screen s) = unfocused scr -> screen_count s = 0 /\ count s = if is_open s then 1 else 0.
Proof.
  intros s E. assert (K : screen_count s = 0).
  { unfold screen_count. rewrite count_order. destruct (passive_items _ E) as [-> _]. destruct (shown (s_screen s)); reflexivity. }
  split; [exact K|]. unfold count. rewrite K. reflexivity.
Qed.
Lemma clear_alike : forall s : state, unfocused (s_screen s) = unfocused scr -> unfocused (s_screen (clear s)) = unfocused scr.
Proof. intros s E. cbn. destruct (shown (s_screen s)); [rewrite clear_shape|]; exact E. Qed.
Lemma find_idle : forall s : state, unfocused (s_screen s) = unfocused scr -> find_index_by_id palette_id (s_screen s) 0 = inr 0.
Proof.
  intros s E. generalize palette_id. intros id. rewrite find_index_spec.
  assert (IT : items shown (s_screen s) = []).
  { destruct (passive_items _ E) as [H _]. unfold focus_order, focus_items in H. fold (items shown (s_screen s)) in H. destruct (items shown (s_screen s)); [reflexivity|discriminate]. }
  rewrite IT. destruct (shown (s_screen s)); reflexivity.
Qed.
Lemma focus_at_idle : forall s : state, unfocused (s_screen s) = unfocused scr -> is_open s = true ->
  focus_at 0 (clear s) = (with_focus (s_screen (clear s)) (s_path s) (s_cur s) true s, true).
Proof.
  intros s E V. destruct (idle_counts (clear s) (clear_alike s E)) as [K _]. unfold focus_at. rewrite K. assert (is_open (clear s) = true) as -> by exact V. reflexivity.
Qed.
Lemma index_idle : forall s : state, unfocused (s_screen s) = unfocused scr -> is_open s = true -> s_path s = line_path -> s_cur s = 0 ->
  fst (focus_index 0 s) = with_focus (s_screen (clear s)) line_path 0 true s.
Proof.
  intros s E V Pa C. unfold focus_index. destruct (idle_counts s E) as [_ ->]. rewrite (focus_at_idle s E V), V, Pa, C. reflexivity.
Qed.
Lemma palette_idle : forall s : state, unfocused (s_screen s) = unfocused scr -> is_open s = true -> s_path s = line_path -> s_cur s = 0 ->
  focus_id palette_id s = with_focus (s_screen (clear s)) line_path 0 true s.
Proof.
  intros s E V Pa C. unfold focus_id. rewrite (find_idle s E), V. assert (text_eqb palette_id palette_id = true) as -> by (apply text_eqb_iff; reflexivity).
  cbn [andb]. apply index_idle; assumption.
Qed.
Lemma opened_idle : forall p ps f, fit p -> Palette_Model.pending_action P p = None ->
  let p1 := pstep (pstep p (Palette_Model.SetProviders P ps)) (Palette_Model.OpenFocus P f) in fit p1 /\ vis p1 = true /\ Palette_Model.pending_action P p1 = None.
Proof.
  intros p ps f A1 A5. cbv zeta. split; [|split].
  - apply Palette_Proofs.step_fit. apply Palette_Proofs.step_fit. exact A1.
  - exact (proj1 (open_again P ask p ps f A1)).
  - refine (quiet_pending _ (Palette_Model.OpenFocus P f) I _). refine (quiet_pending _ (Palette_Model.SetProviders P ps) I _). exact A5.
Qed.
Lemma key_idle : forall s, idle s -> idle (act true s (str "app.command_palette")) /\ is_open (act true s (str "app.command_palette")) = true.
Proof.
  intros s (A1 & A2 & A3 & A4 & A5 & A6).
  rewrite (act_opens W P ask default_on_action command_providers true s (str "app.command_palette") (s_world s) eq_refl eq_refl eq_refl eq_refl).
  generalize (str "app.command_palette"). intros a.
  destruct (opened_idle (s_palette s) (command_providers (s_world s)) (s_cur s) A1 A5) as (F2 & V2 & N2).
  generalize dependent (pstep (pstep (s_palette s) (Palette_Model.SetProviders P (command_providers (s_world s)))) (Palette_Model.OpenFocus P (s_cur s))). intros p1 F2 V2 N2.
  rewrite palette_idle; [|exact A2|exact V2|exact A3|exact A4]. split; [|exact V2].
  split; [exact F2|]. split; [apply (clear_alike s A2)|]. split; [reflexivity|]. split; [reflexivity|]. split; [exact N2|].
  intros V. exfalso. change (vis p1 = false) in V. congruence.
Qed.
Lemma dispatch_idle : forall k s, idle s -> dispatch k s = hear (ToLine k) s.
Proof. intros k s (_ & _ & A3 & _). unfold dispatch. rewrite A3. reflexivity. Qed.
Lemma move_idle : forall k s, idle s -> move k s = s.
Proof.
  intros k s (_ & A2 & _). unfold move. destruct (is_open s) eqn:V; [reflexivity|]. destruct (idle_counts s A2) as [_ C]. rewrite V in C. destruct k; try reflexivity; unfold next, previous; rewrite C; reflexivity.
Qed.
Lemma give_back_idle : forall s, idle s -> give_back s = s.
Proof. intros s (_ & _ & _ & _ & _ & A6). unfold give_back. destruct (is_open s); [reflexivity|]. rewrite (A6 eq_refl). reflexivity. Qed.
Lemma actions_idle : forall s, idle s -> exists w, actions s = with_palette (pstep (s_palette (with_world w s)) (Palette_Model.TakeAction P)) (with_world w s).
Proof.
  intros s (_ & _ & _ & _ & A5 & _). unfold actions. pose proof (Asks (s_world s)) as Q. destruct (asked (s_world s)) as [l w]. cbn [fst] in Q. subst l. rewrite A5. exists w. reflexivity.
Qed.
Lemma tail_idle : forall s, idle s -> idle (drain (give_back (actions s))) /\ is_open (drain (give_back (actions s))) = is_open s /\
  s_heard (drain (give_back (actions s))) = s_heard s /\ s_quit (drain (give_back (actions s))) = s_quit s.
Proof.
  intros s I0. destruct (actions_idle s I0) as (w & ->). assert (I1 : idle (with_world w s)) by exact I0.
  destruct (put_idle (Palette_Model.TakeAction P) (with_world w s) I I1) as [I2 O2].
  generalize dependent (pstep (s_palette (with_world w s)) (Palette_Model.TakeAction P)). intros p I2 O2.
  rewrite (give_back_idle _ I2). destruct (drain_idle _ I2) as [I3 O3]. split; [exact I3|]. split; [rewrite O3; exact O2|]. split; reflexivity.
Qed.
Lemma settle_idle : forall s, idle s -> settle s = s.
Proof. intros s (_ & _ & A3 & _). unfold settle, can_focus. rewrite A3. reflexivity. Qed.
Lemma start_idle : forall w, idle (start (P := P) scr w) /\ is_open (start (P := P) scr w) = false.
Proof.
  intros w. unfold start. set (s0 := State scr [] 0 (Palette_Model.palette_new P true) false w false []).
  assert (E0 : unfocused (s_screen s0) = unfocused scr) by reflexivity. pose proof (clear_alike s0 E0) as EC. destruct (idle_counts (clear s0) EC) as [K _].
  assert (FA : focus_at 0 (clear s0) = (clear s0, false)). { unfold focus_at. rewrite K. reflexivity. }
  rewrite FA. cbn [fst]. assert (PT : path_to 0 (clear s0) = line_path).
  { unfold path_to. rewrite find_path_order. destruct (passive_items _ EC) as [_ ->]. reflexivity. }
  assert (RF : refocus 0 (clear s0) = with_focus (s_screen (clear s0)) line_path 0 (s_pfocus (clear s0)) (clear s0)). { unfold refocus. rewrite PT. reflexivity. }
  assert (ID : idle (refocus 0 (clear s0))).
  { rewrite RF. split; [apply (Palette_Proofs.reachable_fit P ask [])|]. split; [exact EC|]. repeat split. }
  rewrite (settle_idle _ ID). split; [exact ID|]. rewrite RF. reflexivity.
Qed.
Lemma handle_idle : forall e s, no_mouse e -> idle s -> idle (handle s e) /\ (is_open s = true -> is_open (handle s e) = true /\ s_quit (handle s e) = s_quit s /\
  exists hs, s_heard (handle s e) = s_heard s ++ hs /\ Forall unheard hs).
Proof.
  intros e s Nm I0.
  assert (K : forall s', idle s' -> is_open s' = is_open s -> s_quit s' = s_quit s -> s_heard s' = s_heard s -> idle s' /\ (is_open s = true -> is_open s' = true /\ s_quit s' = s_quit s /\ exists hs, s_heard s' = s_heard s ++ hs /\ Forall unheard hs)).
  { intros s' H1 H2 H3 H4. split; [exact H1|]. intros V. rewrite H2. split; [exact V|]. split; [exact H3|]. exists []. rewrite app_nil_r. auto. }
  destruct e; cbn [no_mouse handle] in *; try contradiction.
  - unfold press. destruct (system e) eqn:Se.
    + destruct (key_idle s I0) as [I1 O1]. destruct (drain_idle _ I1) as [I2 O2]. split; [exact I2|]. intros V. split; [rewrite O2; exact O1|].
      destruct (act_hears W P ask default_on_action command_providers true s (str "app.command_palette")) as [H1 H2]. cbn zeta in *. cbn [drain with_palette s_quit s_heard]. rewrite H1, H2.
      split; [apply orb_false_r|]. eexists. split; [reflexivity|]. constructor; [right; reflexivity|constructor].
    + set (k := Keys_Model.k_code e). rewrite (move_idle k s I0), (dispatch_idle k s I0).
      assert (I1 : idle (tell_app (is_open s) k (hear (ToLine k) s))).
      { unfold tell_app. destruct (is_open s); [exact I0|]. destruct (on_key k _) as [w q]. exact I0. }
      destruct (tail_idle _ I1) as (I2 & O2 & H2 & Q2). split; [exact I2|]. intros V. rewrite O2, H2, Q2. unfold tell_app. rewrite V. split; [exact V|]. split; [reflexivity|].
      exists [ToLine k]. split; [reflexivity|]. constructor; [left; exists k; reflexivity|constructor].
  - destruct (put_idle (Palette_Model.Advance P ms) s I I0) as [I1 O1]. apply K; auto.
  - destruct (put_idle (Palette_Model.Finish P i) s I I0) as [I1 O1]. apply K; auto.
  - destruct (drain_idle s I0) as [I1 O1]. apply K; auto.
  - assert (I1 : idle (with_world (f (s_world s)) s)) by exact I0. destruct (drain_idle _ I1) as [I2 O2]. apply K; auto.
Qed.
Lemma turn_idle : forall e s, no_mouse e -> s_quit s = true \/ idle s -> s_quit (turn s e) = true \/ idle (turn s e).
Proof.
  intros e s Nm G. unfold turn. destruct (s_quit s) eqn:Q; [auto|]. destruct G as [G|G]; [discriminate|]. destruct (handle_idle e s Nm G) as [I1 _].
  destruct (s_quit (handle s e)) eqn:Q1; [auto|]. right. rewrite (settle_idle _ I1). exact I1.
Qed.
Lemma turns_idle : forall es s, Forall no_mouse es -> s_quit s = true \/ idle s -> s_quit (turns s es) = true \/ idle (turns s es).
Proof. induction es as [|e es IH]; intros s Nm G; [exact G|]. inversion Nm; subst. cbn [turns fold_left]. apply IH; [assumption|]. apply turn_idle; assumption. Qed.
Lemma turns_stuck : forall es s, Forall no_mouse es -> idle s -> is_open s = true -> s_quit s = false ->
  is_open (turns s es) = true /\ s_quit (turns s es) = false /\ exists hs, s_heard (turns s es) = s_heard s ++ hs /\ Forall unheard hs.
Proof.
  induction es as [|e es IH]; intros s Nm I0 V Q.
  - split; [exact V|]. split; [exact Q|]. exists []. rewrite app_nil_r. auto.
  - inversion Nm as [|? ? N1 N2]; subst. cbn [turns fold_left]. destruct (handle_idle e s N1 I0) as [I1 K]. destruct (K V) as (O1 & Q1 & hs & H1 & H2).
    assert (T : turn s e = handle s e). { unfold turn. rewrite Q. rewrite Q1, Q. apply settle_idle, I1. }
    destruct (IH (turn s e) N2) as (A1 & A2 & hs2 & A3 & A4); rewrite ?T; auto; [congruence|]. unfold turns in *. rewrite T in *. split; [exact A1|]. split; [exact A2|].
    exists (hs ++ hs2). rewrite A3, H1, <- app_assoc. split; [reflexivity|]. apply Forall_app. auto.
Qed.
End Stuck.
