From Coq Require Import ZArith List Bool Arith Lia ZifyBool ZifyNat.
From Verif Require Import Canvas_Model Canvas_Spec Canvas_Proofs Flush_Proofs.
Import ListNotations.
Local Open Scope nat_scope.

Section Frames.
Context {Sym Color Bg : Type}.
Variable gw : Sym -> nat.
Variable space : Sym.
Variable sym_eqb : Sym -> Sym -> bool.
Variable color_eqb : Color -> Color -> bool.
Variable reset : Color.
Variable translucent : option Bg -> bool.
Variable resolve_bg : option Bg -> option Color -> option Color.

Notation cell := (@cell Sym Color).
Notation canvas := (@canvas Sym Color).
Notation term := (@term Sym Color).
Notation exec_all := (@exec_all Sym Color gw reset).
Notation shows := (@shows Sym Color reset).
Notation wf_frame := (@wf_frame Sym Color gw).
Notation flush := (@flush Sym Color sym_eqb color_eqb reset).
Notation do_event := (@do_event Sym Color Bg gw space sym_eqb color_eqb reset translucent resolve_bg).
Notation run_events := (@run_events Sym Color Bg gw space sym_eqb color_eqb reset translucent resolve_bg).
Notation flushes_wf := (@flushes_wf Sym Color Bg gw space sym_eqb color_eqb reset translucent resolve_bg).
Notation do_draw := (@do_draw Sym Color Bg gw space sym_eqb translucent resolve_bg).
Notation do_op := (@do_op Sym Color Bg gw space sym_eqb color_eqb reset translucent resolve_bg).

Notation event_narrow := (@event_narrow Sym Color Bg gw).
Notation seg_sound := (@seg_sound Sym Color Bg gw).

Section Shown.
Hypothesis sym_ok : forall a b, sym_eqb a b = true <-> a = b.
Hypothesis color_ok : forall a b, color_eqb a b = true <-> a = b.

Lemma cells_all : forall l : list cell, cells_N (map (fun c => (true, c)) l) = l.
Proof. intros l. unfold cells_N. rewrite map_map. apply map_id. Qed.

Lemma full_shows : forall w h l (t : term), wf_frame w h l ->
  shows w h (exec_all w h t (flush_full color_eqb reset w l)) l.
Proof.
  intros w h l t Hwf. unfold flush_full. rewrite full_loop_gen.
  set (N := map (fun c => (true, c)) l). rewrite exec_all_cons, exec_all_app, exec_reset.
  set (t1 := set_pen _ _).
  assert (Hwf' : wf_frame w h (cells_N N)) by (unfold N; now rewrite cells_all).
  assert (HU : forall x y c, x < w -> y < h -> flag_at w N x y false -> at_ w N x y c -> c_cont c = false ->
     t_scr t1 y x = show_cell reset c /\ (forall k, 1 <= k < c_width c -> t_scr t1 y (x + k) = TTail) /\
     (x + c_width c < w -> t_scr t1 y (x + c_width c) <> TTail)).
  { intros x y c _ _ [c' Hf]. unfold N in Hf. rewrite nth_error_map in Hf.
    destruct (nth_error l (y * w + x)); discriminate. }
  pose proof (Inv_init space sym_eqb color_eqb reset sym_ok color_ok w h N (t_scr t1) HU) as HI.
  pose proof (gen_loop_ok gw space sym_eqb color_eqb reset sym_ok color_ok w h N Hwf' (t_scr t1) HU
    (w * h) 0 (FState None None attrs_default 0 0) t1 eq_refl HI eq_refl) as HG.
  rewrite <- (cells_all l). fold N.
  apply (Inv_shows space sym_eqb color_eqb reset sym_ok color_ok w h N (t_scr t1) HU).
  apply HG. intros x y Hx Ex Ey. cbn in Ex, Ey. left. cbn. lia.
Qed.

Lemma flags_cells : forall l prev : list cell, length l = length prev ->
  cells_N (flags sym_eqb color_eqb l prev) = l.
Proof.
  unfold cells_N, flags. induction l as [|c l IH]; intros [|p prev] H; try discriminate; [reflexivity|].
  cbn. f_equal. apply IH. now injection H.
Qed.

Lemma flags_nth : forall (l prev : list cell) i f c,
  nth_error (flags sym_eqb color_eqb l prev) i = Some (f, c) ->
  nth_error l i = Some c /\ exists p, nth_error prev i = Some p /\ f = negb (cell_eqb sym_eqb color_eqb c p).
Proof.
  unfold flags. induction l as [|a l IH]; intros [|p prev] [|i] f c H; cbn in H; try discriminate.
  - injection H as <- <-. cbn. eauto.
  - cbn. now apply IH.
Qed.

Lemma diff_shows : forall w h l prev (t : term), wf_frame w h l -> wf_frame w h prev ->
  shows w h t prev ->
  shows w h (exec_all w h t (flush_diff sym_eqb color_eqb reset w l prev)) l.
Proof.
  intros w h l prev t Hwf Hwp Hsh. unfold flush_diff. rewrite diff_loop_gen.
  set (N := flags sym_eqb color_eqb l prev). rewrite exec_all_app, exec_reset.
  set (t1 := set_pen _ _).
  assert (HC : cells_N N = l).
  { apply flags_cells. destruct Hwf as [-> _], Hwp as [-> _]. reflexivity. }
  assert (Hwf' : wf_frame w h (cells_N N)) by now rewrite HC.
  assert (HU : forall x y c, x < w -> y < h -> flag_at w N x y false -> at_ w N x y c -> c_cont c = false ->
     t_scr t1 y x = show_cell reset c /\ (forall k, 1 <= k < c_width c -> t_scr t1 y (x + k) = TTail) /\
     (x + c_width c < w -> t_scr t1 y (x + c_width c) <> TTail)).
  { intros x y c Hx Hy [c' Hf] Ha Hc. unfold at_ in Ha. rewrite HC in Ha.
    destruct (flags_nth _ _ _ _ _ Hf) as (Hl & p & Hp & Ef). rewrite Ha in Hl. injection Hl as <-.
    assert (c = p). { apply (cell_eqb_ok sym_eqb color_eqb sym_ok color_ok). destruct (cell_eqb _ _ c p); [reflexivity|discriminate]. }
    subst p. destruct Hwp as [HL Hwp]. destruct (Hwp x y c Hx Hy Hp) as [_ W]. destruct (W Hc) as (_ & W1 & W2 & W3 & W4).
    change (t_scr t1) with (t_scr t).
    assert (EX : forall x', x' < w -> exists c', nth_error prev (y * w + x') = Some c').
    { intros x' Hx'. destruct (nth_error prev (y * w + x')) eqn:E; [eauto|]. apply nth_error_None in E. nia. }
    split; [|split].
    - apply Hsh; auto.
    - intros k Hk. destruct (EX (x + k)) as [c' Hc']; [lia|]. rewrite (Hsh (x + k) y c'); auto; [|lia].
      unfold show_cell. rewrite (W3 k c'); auto. rewrite <- Nat.add_assoc. exact Hc'.
    - intros Hlt. destruct (EX (x + c_width c)) as [c' Hc']; [lia|]. rewrite (Hsh (x + c_width c) y c'); auto.
      unfold show_cell. rewrite (W4 c'); auto; [discriminate|]. rewrite <- Nat.add_assoc. exact Hc'. }
  pose proof (Inv_init space sym_eqb color_eqb reset sym_ok color_ok w h N (t_scr t1) HU) as HI.
  pose proof (gen_loop_ok gw space sym_eqb color_eqb reset sym_ok color_ok w h N Hwf' (t_scr t1) HU
    (w * h) 0 (FState None None attrs_default (-1) (-1)) t1 eq_refl HI eq_refl) as HG.
  rewrite <- HC. apply (Inv_shows space sym_eqb color_eqb reset sym_ok color_ok w h N (t_scr t1) HU).
  apply HG. intros x y Hx Ex Ey. cbn in Ex, Ey. lia.
Qed.

(** *** histories *)

Record hist (w h : nat) (full dirty : bool) (s : canvas * term) : Prop := {
  h_good : exists open, good w h open (fst s);
  h_first : cv_first (fst s) = full;
  h_wfp : full = false -> dirty = false -> wf_frame w h (cv_prev (fst s)) /\ shows w h (snd s) (cv_prev (fst s)) }.

Definition after (full dirty : bool) (e : @event Sym Color Bg) : bool * bool :=
  match e with
  | EGarble _ => (full, negb full)
  | EOp OInvalidate => (true, false)
  | EOp OFlush => (false, false)
  | EOp _ => (full, dirty)
  end.

Lemma draw_fields : forall d (c c' : canvas) w h open, good w h open c -> do_draw c d = Some c' ->
  cv_first c' = cv_first c /\ cv_prev c' = cv_prev c.
Proof.
  intros d c c' w h open (E1 & E2 & E3 & _) E.
  destruct (do_draw_only_in gw space sym_eqb color_eqb reset translucent resolve_bg d c) as (l' & E' & _); [congruence|].
  rewrite E in E'. injection E' as ->. split; reflexivity.
Qed.

Lemma flush_fst : forall c, flush c = (fst (flush c), snd (flush c)).
Proof. intros. reflexivity. Qed.

Lemma hist_step : forall w h full dirty s e,
  hist w h full dirty s -> event_i32 e ->
  (e = EOp OFlush -> dirty = false /\ wf_frame w h (cv_cells (fst s))) ->
  exists s', do_event w h s e = Some s' /\
    hist w h (fst (after full dirty e)) (snd (after full dirty e)) s' /\
    (e = EOp OFlush -> shows w h (snd s') (cv_cells (fst s))).
Proof.
  intros w h full dirty [c t] e [[open HG] HF HW] He Hfl. cbn [fst snd] in *.
  destruct e as [o|t'].
  2: { exists (c, t'). split; [reflexivity|]. split; [|discriminate]. constructor; cbn; eauto. 
       intros E1 E2. rewrite E1 in E2. discriminate. }
  destruct (step_good gw space sym_eqb color_eqb reset translucent resolve_bg w h open o c HG He) as (c' & E & HG').
  assert (NF : o <> OFlush -> do_event w h (c, t) (EOp o) = Some (c', t)).
  { intros Hn. unfold Canvas_Spec.do_event. cbn [fst snd]. destruct o; try contradiction; rewrite E; reflexivity. }
  destruct o as [d|r| | | |].
  - exists (c', t). split; [apply NF; discriminate|]. split; [|discriminate].
    destruct (draw_fields d c c' w h open HG E) as [F1 F2].
    constructor; cbn [fst snd after]; [eauto|congruence|]. rewrite F2. exact HW.
  - exists (c', t). split; [apply NF; discriminate|]. split; [|discriminate]. cbn in E. injection E as <-.
    constructor; cbn [fst snd after]; eauto.
  - exists (c', t). split; [apply NF; discriminate|]. split; [|discriminate]. cbn in E. injection E as <-.
    constructor; cbn [fst snd after]; eauto.
  - exists (c', t). split; [apply NF; discriminate|]. split; [|discriminate]. cbn in E. injection E as <-.
    constructor; cbn [fst snd after]; eauto.
  - exists (c', t). split; [apply NF; discriminate|]. split; [|discriminate]. cbn in E. injection E as <-.
    constructor; cbn [fst snd after]; eauto. discriminate.
  - destruct (Hfl eq_refl) as [-> Hwf]. cbn [Canvas_Spec.do_op] in E. injection E as <-.
    exists (snd (flush c), exec_all w h t (fst (flush c))). split; [reflexivity|].
    assert (SH : shows w h (exec_all w h t (fst (flush c))) (cv_cells c)).
    { destruct HG as (E1 & E2 & _). unfold Canvas_Model.flush. cbn [fst]. rewrite E1, HF. destruct full.
      - now apply full_shows.
      - destruct (HW eq_refl eq_refl). now apply diff_shows. }
    split; [|intros _; exact SH].
    constructor; cbn [fst snd after]; [eauto|reflexivity|]. intros _ _. cbn. auto.
Qed.

Lemma run_events_app : forall w h a b s, run_events w h s (a ++ b) =
  match run_events w h s a with None => None | Some s' => run_events w h s' b end.
Proof.
  intros w h. induction a as [|e a IH]; intros b s; [reflexivity|]. cbn [app Canvas_Spec.run_events].
  destruct (do_event w h s e); [apply IH|reflexivity].
Qed.

Lemma flushes_wf_app : forall w h a b s s', flushes_wf w h s (a ++ b) -> run_events w h s a = Some s' ->
  flushes_wf w h s a /\ flushes_wf w h s' b.
Proof.
  intros w h. induction a as [|e a IH]; intros b s s' H E; cbn [app Canvas_Spec.flushes_wf Canvas_Spec.run_events] in *.
  - injection E as <-. auto.
  - destruct H as [H1 H2]. destruct (do_event w h s e) as [s1|]; [|discriminate].
    destruct (IH b s1 s' H2 E). auto.
Qed.

Lemma flushes_wf_prefix : forall w h a b s, flushes_wf w h s (a ++ b) -> flushes_wf w h s a.
Proof.
  intros w h. induction a as [|e a IH]; intros b s H; cbn [app Canvas_Spec.flushes_wf] in *; [exact I|].
  destruct H as [H1 H2]. split; [exact H1|]. destruct (do_event w h s e); [|exact I]. eauto.
Qed.

Fixpoint after_all (f d : bool) (l : list (@event Sym Color Bg)) : bool * bool :=
  match l with [] => (f, d) | e :: r => after_all (fst (after f d e)) (snd (after f d e)) r end.

Lemma invalidated_app : forall (a b : list (@event Sym Color Bg)) f d, invalidated f d (a ++ b) ->
  invalidated f d a /\ invalidated (fst (after_all f d a)) (snd (after_all f d a)) b.
Proof.
  induction a as [|e a IH]; intros b f d H; [cbn; auto|].
  destruct e as [[]|]; cbn in *; try (apply IH; exact H).
  destruct H as [H1 H2]. destruct (IH b _ _ H2). auto.
Qed.

Lemma hist_run_state : forall w h l f d s,
  hist w h f d s -> Forall event_i32 l -> flushes_wf w h s l -> invalidated f d l ->
  exists s', run_events w h s l = Some s' /\ hist w h (fst (after_all f d l)) (snd (after_all f d l)) s'.
Proof.
  intros w h. induction l as [|e l IH]; intros full dirty s HH He Hf Hi.
  - exists s. auto.
  - inversion He as [|? ? He1 He2]; subst. destruct Hf as [Hf1 Hf2].
    assert (HI : (e = EOp OFlush -> dirty = false) /\ invalidated (fst (after full dirty e)) (snd (after full dirty e)) l).
    { destruct e as [[]|]; cbn in *; intuition congruence. }
    destruct (hist_step w h full dirty s e HH He1) as (s' & E & HH' & _).
    { intros ->. split; [now apply HI|exact Hf1]. }
    cbn [Canvas_Spec.run_events]. rewrite E in *. apply (IH _ _ s' HH'); tauto.
Qed.

Lemma hist_shown : forall w h c0 t0 l,
  canvas_new space w h = Some c0 -> Forall event_i32 l ->
  flushes_wf w h (c0, t0) (l ++ [EOp OFlush]) -> invalidated true false (l ++ [EOp OFlush]) ->
  exists c t c' t', run_events w h (c0, t0) l = Some (c, t) /\
    run_events w h (c0, t0) (l ++ [EOp OFlush]) = Some (c', t') /\
    shows w h t' (cv_cells c).
Proof.
  intros w h c0 t0 l E0 He Hf Hi.
  assert (H0 : hist w h true false (c0, t0)).
  { constructor; cbn [fst snd]; try discriminate.
    - exists []. eapply new_good; eauto.
    - unfold canvas_new in E0. destruct (_ <=? _)%Z; [|discriminate]. injection E0 as <-. reflexivity. }
  destruct (invalidated_app _ _ _ _ Hi) as [Hi1 Hi2].
  destruct (hist_run_state w h l true false (c0, t0) H0 He (flushes_wf_prefix _ _ _ _ _ Hf) Hi1) as ([c t] & E & HH).
  destruct (flushes_wf_app _ _ _ _ _ _ Hf E) as [_ [Hf2 _]]. cbn [fst] in Hf2.
  destruct Hi2 as [Hd _].
  destruct (hist_step w h _ _ (c, t) (EOp OFlush) HH I) as ([c' t'] & E' & _ & SH).
  { intros _. auto. }
  exists c, t, c', t'. split; [exact E|]. split; [|apply SH; reflexivity].
  rewrite run_events_app, E. cbn [Canvas_Spec.run_events]. rewrite E'. reflexivity.
Qed.

End Shown.

(** *** Which frames are well formed *)

Section Cells.
Variable P : cell -> Prop.
Hypothesis P_bg : forall c b, P c -> P (with_bg c b).

Lemma set_nth_Forall : forall i (x : cell) l l', set_nth i x l = Some l' -> P x -> Forall P l -> Forall P l'.
Proof.
  induction i as [|i IH]; intros x [|a l] l' E Hx HF; cbn in E; try discriminate.
  - injection E as <-. inversion HF; auto.
  - destruct (set_nth i x l) eqn:E1; [|discriminate]. injection E as <-. inversion HF; subst. constructor; eauto.
Qed.

Lemma write_cell_Forall : forall cells idx pr (bg : option Bg) mk l',
  write_cell resolve_bg cells idx pr bg mk = Some l' -> (forall b, P (mk b)) -> Forall P cells -> Forall P l'.
Proof.
  intros cells idx pr bg mk l' E Hm HF. unfold write_cell in E.
  destruct (nth_error cells (Z.to_nat idx)) as [old|] eqn:En; [|discriminate].
  eapply set_nth_Forall; eauto. destruct pr; [|apply Hm]. apply P_bg.
  rewrite Forall_forall in HF. apply HF. eapply nth_error_In; eauto.
Qed.

Variable OK : Sym -> Prop.
Hypothesis OK_width : forall g, OK g -> gw g = 1.
Hypothesis P_cell : forall g fg b a, OK g -> P (Cell g 1 false fg b a).

Lemma put_grapheme_Forall : forall (c c' : canvas) x y g fg bg a clip, OK g ->
  put_grapheme space sym_eqb translucent resolve_bg c x y g (gw g) fg bg a clip = Some c' ->
  Forall P (cv_cells c) -> Forall P (cv_cells c').
Proof.
  intros c c' x y g fg bg a clip Hg E HF. unfold put_grapheme in E. rewrite (OK_width g Hg) in E.
  repeat match type of E with (if ?b then Some c else _) = _ => destruct b; [injection E as <-; exact HF|] end.
  match type of E with match ?m with _ => _ end = _ => destruct m as [l1|] eqn:E1; [|discriminate] end.
  cbn [Nat.sub put_conts option_map] in E. injection E as <-. cbn.
  eapply write_cell_Forall; [exact E1|intros b; now apply P_cell|exact HF].
Qed.

Lemma put_str_Forall : forall s (c c' : canvas) x y fg bg a, Forall OK s ->
  put_str gw space sym_eqb translucent resolve_bg c x y s fg bg a = Some c' ->
  Forall P (cv_cells c) -> Forall P (cv_cells c').
Proof.
  intros s c c' x y fg bg a Hs E HF. unfold put_str in E.
  repeat match type of E with (if ?b then Some c else _) = _ => destruct b; [injection E as <-; exact HF|] end.
  set (clip := current_clip c) in E. clearbody clip. revert clip c c' x E HF. induction Hs as [|g s Hg Hs IH]; intros clip c c' x E HF;
    cbn [put_str_loop] in E.
  - injection E as <-. exact HF.
  - destruct (_ <=? x)%Z; [injection E as <-; exact HF|].
    destruct (put_grapheme _ _ _ _ c x y g (gw g) fg bg a clip) as [c1|] eqn:E1; [|discriminate].
    apply (IH clip c1 c' _ E). eapply put_grapheme_Forall; eauto.
Qed.

Lemma render_strip_Forall : forall segs (c c' : canvas) x y, Forall (fun s => Forall OK (s_text s)) segs ->
  render_strip gw space sym_eqb translucent resolve_bg c segs x y = Some c' ->
  Forall P (cv_cells c) -> Forall P (cv_cells c').
Proof.
  intros segs c c' x y Hs. revert c c' x. induction Hs as [|s r Hs Hr IH]; intros c c' x E HF; cbn [render_strip] in E.
  - injection E as <-. exact HF.
  - destruct (put_str _ _ _ _ _ c x y _ _ _ _) as [c1|] eqn:E1; [|discriminate].
    apply (IH c1 c' _ E). eapply put_str_Forall; eauto.
Qed.

Lemma do_draw_Forall : forall d (c c' : canvas), draw_ok OK d -> do_draw c d = Some c' ->
  Forall P (cv_cells c) -> Forall P (cv_cells c').
Proof.
  intros [x y g fg bg a|x y s fg bg a|segs x y|l x y] c c' Hd E HF; cbn in Hd, E.
  - eapply put_grapheme_Forall; eauto.
  - eapply put_str_Forall; eauto.
  - eapply render_strip_Forall; eauto.
  - revert c c' y E HF. induction Hd as [|s r Hs Hr IH]; intros c c' y E HF; cbn [render_strips] in E.
    + injection E as <-. exact HF.
    + destruct (render_strip _ _ _ _ _ c s x y) as [c1|] eqn:E1; [|discriminate].
      apply (IH c1 c' _ E). eapply render_strip_Forall; eauto.
Qed.

End Cells.

Definition narrow (c : cell) : Prop := c_width c = 1 /\ c_cont c = false /\ gw (c_sym c) = 1.

Lemma narrow_wf : forall w h l, length l = w * h -> Forall narrow l -> wf_frame w h l.
Proof.
  intros w h l HL HF. split; [exact HL|]. intros x y c Hx Hy E. rewrite Forall_forall in HF.
  destruct (HF c (nth_error_In _ _ E)) as (A & B & C). split; [auto|]. intros _. rewrite A. split; [congruence|].
  split; [lia|]. split; [lia|]. split; [intros; lia|].
  intros c' Hlt E'. now destruct (HF c' (nth_error_In _ _ E')) as (_ & ? & _).
Qed.

Lemma narrow_step : forall w h s e s', (exists open, good w h open (fst s)) -> event_i32 e -> event_narrow e ->
  gw space = 1 ->
  Forall narrow (cv_cells (fst s)) /\ Forall narrow (cv_prev (fst s)) -> do_event w h s e = Some s' ->
  (exists open, good w h open (fst s')) /\ Forall narrow (cv_cells (fst s')) /\ Forall narrow (cv_prev (fst s')).
Proof.
  intros w h [c t] e [c' t'] [open HG] Hi Hn Hsp [N1 N2] E. cbn [fst] in *.
  destruct e as [o|tt].
  2: { injection E as <- <-. eauto. }
  destruct (step_good gw space sym_eqb color_eqb reset translucent resolve_bg w h open o c HG Hi) as (c1 & E1 & HG').
  assert (c1 = c').
  { unfold Canvas_Spec.do_event in E. cbn [fst snd] in E. destruct o; try (rewrite E1 in E; cbn in E; congruence).
    cbn [Canvas_Spec.do_op] in E1. rewrite flush_fst in E. congruence. }
  subst c1. split; [eauto|].
  destruct o as [d|r| | | |]; cbn [Canvas_Spec.do_op] in E1; try (injection E1 as <-; cbn; auto; fail).
  - destruct (draw_fields d c c' w h open HG E1) as [_ ->]. split; [|exact N2].
    eapply (do_draw_Forall narrow) with (OK := fun g => gw g = 1); [| |intros; split; [reflexivity|split; [reflexivity|exact H]]|exact Hn|exact E1|exact N1].
    + intros x [b|] H; exact H.
    + auto.
  - injection E1 as <-. cbn. split; [|exact N2]. apply Forall_forall. intros x Hx. apply repeat_spec in Hx. subst x.
    split; [reflexivity|split; [reflexivity|exact Hsp]].
Qed.

Lemma narrow_flushes_wf : forall w h c0 t0 l, canvas_new space w h = Some c0 -> gw space = 1 ->
  Forall event_i32 l -> Forall event_narrow l -> flushes_wf w h (c0, t0) l.
Proof.
  intros w h c0 t0 l E0 Hsp.
  assert (H0 : (exists open, good w h open (fst (c0, t0))) /\ Forall narrow (cv_cells (fst (c0, t0))) /\ Forall narrow (cv_prev (fst (c0, t0)))).
  { split; [exists []; eapply new_good; eauto|].
    unfold canvas_new in E0. destruct (_ <=? _)%Z; [|discriminate]. injection E0 as <-. cbn.
    assert (Forall narrow (repeat (blank_cell space) (w * h))); [|auto].
    apply Forall_forall. intros x Hx. apply repeat_spec in Hx. subst x. split; [reflexivity|split; [reflexivity|exact Hsp]]. }
  generalize dependent (c0, t0). clear E0. induction l as [|e l IH]; intros s (HG & N1 & N2) HI HN; [exact I|].
  inversion HI; subst. inversion HN; subst. cbn [Canvas_Spec.flushes_wf]. split.
  - destruct e as [[]|]; auto. destruct HG as [open (E1 & E2 & E3 & _)]. apply narrow_wf; auto.
  - destruct (do_event w h s e) as [s'|] eqn:E; [|exact I]. apply IH; auto.
    eapply narrow_step; eauto.
Qed.

(** *** wide glyphs: drawing at glyph boundaries keeps a frame well formed *)

Lemma cell_xy_nat : forall w (l : list cell) x y, cell_xy w l (Z.of_nat x) (Z.of_nat y) = nth_error l (y * w + x).
Proof. intros. unfold cell_xy. f_equal. lia. Qed.

(** the complete effect of put_grapheme *)
Lemma put_grapheme_full : forall (c : canvas) x y g fg bg at_ clip,
  length (cv_cells c) = cv_w c * cv_h c -> 1 <= gw g ->
  exists l', put_grapheme space sym_eqb translucent resolve_bg c x y g (gw g) fg bg at_ clip = Some (set_cells c l') /\
    length l' = length (cv_cells c) /\
    (l' = cv_cells c \/
     on_screen (cv_w c) (cv_h c) x y /\ (x + Z.of_nat (gw g) <= Z.of_nat (cv_w c))%Z /\
     (forall x' y', on_screen (cv_w c) (cv_h c) x' y' -> ~ (y' = y /\ x <= x' < x + Z.of_nat (gw g))%Z ->
        cell_xy (cv_w c) l' x' y' = cell_xy (cv_w c) (cv_cells c) x' y') /\
     ((exists old b, cell_xy (cv_w c) (cv_cells c) x y = Some old /\ cell_xy (cv_w c) l' x y = Some (with_bg old b) /\ gw g = 1) \/
      ((exists b, cell_xy (cv_w c) l' x y = Some (Cell g (gw g) false fg b at_)) /\
       forall k, (1 <= k < Z.of_nat (gw g))%Z ->
         exists b, cell_xy (cv_w c) l' (x + k) y = Some (Cell space 0 true fg b at_)))).
Proof.
  intros c x y g fg bg at_ clip Hl Hg. unfold put_grapheme.
  repeat match goal with |- context [if ?b then Some c else _] =>
    destruct b eqn:?; [exists (cv_cells c); rewrite set_cells_id; auto|] end.
  set (pr := translucent bg && _ && _ && _ && _).
  assert (Hs : on_screen (cv_w c) (cv_h c) x y) by (unfold on_screen; lia).
  destruct (write_cell_spec gw space sym_eqb color_eqb reset translucent resolve_bg (cv_w c) (cv_h c) (cv_cells c) x y pr bg
    (fun b => Cell g (gw g) false fg b at_) Hl Hs) as (l1 & old & E1 & Eo & HL1 & HC1 & HO1).
  rewrite E1.
  destruct (put_conts_spec gw space sym_eqb color_eqb reset translucent resolve_bg (cv_w c) (cv_h c) y fg bg at_ pr clip (gw g - 1) (x + 1)%Z l1)
    as (l2 & E2 & HL2 & HO2 & HP2); [congruence|lia|].
  rewrite E2. cbn [option_map]. exists l2. split; [reflexivity|]. split; [congruence|]. right.
  split; [exact Hs|]. split; [lia|]. split.
  - intros x' y' Hs' Hn. rewrite HO2; auto; [|lia].
    apply HO1; auto. intros E. injection E as -> ->. apply Hn. lia.
  - assert (HX : cell_xy (cv_w c) l2 x y = cell_xy (cv_w c) l1 x y) by (apply HO2; [exact Hs|lia]).
    destruct pr eqn:Epr.
    + left. exists old, (resolve_bg bg (c_bg old)). split; [exact Eo|]. split; [congruence|]. unfold pr in Epr. lia.
    + right. split.
      * exists (resolve_bg bg (c_bg old)). congruence.
      * intros k Hk. apply HP2; auto; lia.
Qed.

Lemma put_grapheme_wf : forall (c : canvas) x y g fg bg at_ clip,
  wf_frame (cv_w c) (cv_h c) (cv_cells c) -> 1 <= gw g ->
  starts (cv_w c) (cv_cells c) x y ->
  ((x + Z.of_nat (gw g) < Z.of_nat (cv_w c))%Z -> starts (cv_w c) (cv_cells c) (x + Z.of_nat (gw g)) y) ->
  exists l', put_grapheme space sym_eqb translucent resolve_bg c x y g (gw g) fg bg at_ clip = Some (set_cells c l') /\
    wf_frame (cv_w c) (cv_h c) l' /\
    (forall x' y', on_screen (cv_w c) (cv_h c) x' y' -> (y' <> y \/ x + Z.of_nat (gw g) <= x')%Z ->
        cell_xy (cv_w c) l' x' y' = cell_xy (cv_w c) (cv_cells c) x' y').
Proof.
  intros c x y g fg bg at_ clip Hwf Hg Hb1 Hb2. destruct Hwf as [HL Hwf].
  destruct (put_grapheme_full c x y g fg bg at_ clip HL Hg) as (l' & E & HL' & [->|(Hs & Hfit & HO & HN)]).
  { exists (cv_cells c). split; [exact E|]. split; [split; auto|auto]. }
  exists l'. split; [exact E|]. split; [|intros; apply HO; auto; lia].
  set (w := cv_w c) in *. set (h := cv_h c) in *. set (l := cv_cells c) in *.
  split; [congruence|].
  destruct Hs as [Hx0 Hy0].
  assert (X : exists xn yn, x = Z.of_nat xn /\ y = Z.of_nat yn) by (exists (Z.to_nat x), (Z.to_nat y); lia).
  destruct X as (xn & yn & -> & ->).
  destruct HN as [(old & b & Eo & En & Hg1)|[[b Eh] Ec]].
  - (* only a background was blended: nothing structural changes *)
    assert (SAME : forall x y c', x < w -> y < h -> nth_error l' (y * w + x) = Some c' ->
      exists c0, nth_error l (y * w + x) = Some c0 /\ c_cont c' = c_cont c0 /\ c_width c' = c_width c0 /\ c_sym c' = c_sym c0).
    { intros x y c' Hx Hy E'. rewrite <- cell_xy_nat in E'.
      destruct (Nat.eq_dec x xn) as [->|Hn]; [destruct (Nat.eq_dec y yn) as [->|Hn]|].
      - rewrite En in E'. injection E' as <-. exists old. rewrite <- cell_xy_nat. split; [exact Eo|].
        destruct b; auto.
      - rewrite HO in E'; [|unfold on_screen; lia|lia]. exists c'. rewrite <- cell_xy_nat. auto.
      - rewrite HO in E'; [|unfold on_screen; lia|lia]. exists c'. rewrite <- cell_xy_nat. auto. }
    intros x y c' Hx Hy E'. destruct (SAME x y c' Hx Hy E') as (c0 & E0 & -> & -> & ->).
    destruct (Hwf x y c0 Hx Hy E0) as [W0 W]. split; [exact W0|]. intros Hc. destruct (W Hc) as (W1 & W2 & W3 & W4 & W5).
    repeat split; auto.
    + intros k c1 Hk E1. rewrite <- Nat.add_assoc in E1. destruct (SAME (x + k) y c1 ltac:(lia) Hy E1) as (c2 & E2 & -> & _).
      apply (W4 k); auto. now rewrite <- Nat.add_assoc.
    + intros c1 Hk E1. rewrite <- Nat.add_assoc in E1. destruct (SAME (x + c_width c0) y c1 ltac:(lia) Hy E1) as (c2 & E2 & -> & _).
      apply W5; auto. now rewrite <- Nat.add_assoc.
  - assert (OUT : forall x y, x < w -> y < h -> ~ (y = yn /\ xn <= x < xn + gw g) ->
      nth_error l' (y * w + x) = nth_error l (y * w + x)).
    { intros x y Hx Hy Hn. rewrite <- !cell_xy_nat. apply HO; [unfold on_screen; lia|lia]. }
    assert (HEAD : nth_error l' (yn * w + xn) = Some (Cell g (gw g) false fg b at_)) by (rewrite <- cell_xy_nat; exact Eh).
    assert (CONT : forall k, 1 <= k < gw g -> exists b, nth_error l' (yn * w + (xn + k)) = Some (Cell space 0 true fg b at_)).
    { intros k Hk. destruct (Ec (Z.of_nat k) ltac:(lia)) as [b' Eb]. exists b'. rewrite <- cell_xy_nat, <- Eb. f_equal. lia. }
    intros x y c' Hx Hy E'.
    destruct (Nat.eq_dec y yn) as [->|Hny].
    2: { rewrite OUT in E' by lia. destruct (Hwf x y c' Hx Hy E') as [W0 W]. split; [exact W0|].
         intros Hc. destruct (W Hc) as (W1 & W2 & W3 & W4 & W5). repeat split; auto.
         - intros k c1 Hk E1. rewrite <- Nat.add_assoc, OUT, Nat.add_assoc in E1 by lia. eauto.
         - intros c1 Hk E1. rewrite <- Nat.add_assoc, OUT, Nat.add_assoc in E1 by lia. eauto. }
    destruct (le_lt_dec xn x) as [H1|H1]; [destruct (le_lt_dec (xn + gw g) x) as [H2|H2]|].
    + (* right of the new glyph *)
      rewrite OUT in E' by lia. destruct (Hwf x yn c' Hx Hy E') as [W0 W]. split; [exact W0|].
      intros Hc. destruct (W Hc) as (W1 & W2 & W3 & W4 & W5). repeat split; auto.
      * intros k c1 Hk E1. rewrite <- Nat.add_assoc, OUT, Nat.add_assoc in E1 by lia. eauto.
      * intros c1 Hk E1. rewrite <- Nat.add_assoc, OUT, Nat.add_assoc in E1 by lia. eauto.
    + destruct (Nat.eq_dec x xn) as [->|Hnx].
      * rewrite HEAD in E'. injection E' as <-. cbn [c_cont c_width c_sym]. split; [reflexivity|]. intros _.
        split; [reflexivity|]. split; [exact Hg|]. split; [lia|]. split.
        -- intros k c1 Hk E1. destruct (CONT k Hk) as [b' Eb]. rewrite Nat.add_assoc in Eb. rewrite Eb in E1. injection E1 as <-. reflexivity.
        -- intros c1 Hk E1. rewrite <- Nat.add_assoc, OUT in E1 by lia.
           apply (Hb2 ltac:(lia) c1). rewrite <- E1, <- cell_xy_nat. f_equal. lia.
      * destruct (CONT (x - xn) ltac:(lia)) as [b' Eb]. replace (xn + (x - xn)) with x in Eb by lia.
        rewrite E' in Eb. injection Eb as ->. cbn. split; [lia|discriminate].
    + (* left of the new glyph: glyphs there end at or before it *)
      rewrite OUT in E' by lia. destruct (Hwf x yn c' Hx Hy E') as [W0 W]. split; [exact W0|].
      intros Hc. destruct (W Hc) as (W1 & W2 & W3 & W4 & W5).
      assert (HE : x + c_width c' <= xn).
      { destruct (le_lt_dec (x + c_width c') xn) as [|Hgt]; [assumption|exfalso].
        destruct (nth_error l (yn * w + xn)) as [o|] eqn:Eo; [|apply nth_error_None in Eo; nia].
        assert (c_cont o = true). { apply (W4 (xn - x)); [lia|]. rewrite <- Eo. f_equal. lia. }
        assert (c_cont o = false); [|congruence]. apply Hb1. rewrite cell_xy_nat. exact Eo. }
      repeat split; auto.
      * intros k c1 Hk E1. rewrite <- Nat.add_assoc, OUT, Nat.add_assoc in E1 by lia. eauto.
      * intros c1 Hk E1. destruct (Nat.eq_dec (x + c_width c') xn) as [Ee|].
        -- rewrite <- Nat.add_assoc, Ee, HEAD in E1. injection E1 as <-. reflexivity.
        -- rewrite <- Nat.add_assoc, OUT, Nat.add_assoc in E1 by lia. eauto.
Qed.

Lemma put_grapheme_off : forall (c : canvas) x y g wd fg bg at_ clip, ~ (0 <= x < Z.of_nat (cv_w c))%Z ->
  put_grapheme space sym_eqb translucent resolve_bg c x y g wd fg bg at_ clip = Some c.
Proof.
  intros c x y g wd fg bg at_ clip Hx. unfold put_grapheme.
  repeat (match goal with |- (if ?b then Some c else _) = _ => destruct b eqn:?; [reflexivity|] end). lia.
Qed.

Lemma put_grapheme_wf_free : forall (c : canvas) x y g fg bg at_ clip,
  wf_frame (cv_w c) (cv_h c) (cv_cells c) -> 1 <= gw g -> (0 <= y < Z.of_nat (cv_h c))%Z ->
  row_free (cv_w c) (cv_cells c) x y ->
  exists l', put_grapheme space sym_eqb translucent resolve_bg c x y g (gw g) fg bg at_ clip = Some (set_cells c l') /\
    wf_frame (cv_w c) (cv_h c) l' /\
    row_free (cv_w c) l' (x + Z.of_nat (gw g)) y /\
    (forall x' y', on_screen (cv_w c) (cv_h c) x' y' -> y' <> y ->
        cell_xy (cv_w c) l' x' y' = cell_xy (cv_w c) (cv_cells c) x' y').
Proof.
  intros c x y g fg bg at_ clip Hwf Hg Hy HF.
  destruct (Z_lt_dec x 0) as [Hneg|Hpos]; [|destruct (Z_lt_dec x (Z.of_nat (cv_w c))) as [Hin|Hout]].
  1,3: exists (cv_cells c); split; [|split; [exact Hwf|split; [intros x' Hx'; apply HF; lia|auto]]];
    rewrite set_cells_id; apply put_grapheme_off; lia.
  destruct (put_grapheme_wf c x y g fg bg at_ clip Hwf Hg) as (l' & E & Hw' & HO).
  - apply HF; lia.
  - intros Hlt. apply HF; lia.
  - exists l'. split; [exact E|]. split; [exact Hw'|]. split.
    + intros x' Hx' Hr c' Ec. rewrite HO in Ec; [|unfold on_screen; lia|lia]. apply (HF x'); auto. lia.
    + intros x' y' Hs Hne. apply HO; auto.
Qed.

Lemma put_str_wf : forall s (c : canvas) x y fg bg at_,
  wf_frame (cv_w c) (cv_h c) (cv_cells c) -> Forall (fun g => 1 <= gw g) s ->
  row_free (cv_w c) (cv_cells c) x y ->
  exists l', put_str gw space sym_eqb translucent resolve_bg c x y s fg bg at_ = Some (set_cells c l') /\
    wf_frame (cv_w c) (cv_h c) l' /\
    row_free (cv_w c) l' (x + Z.of_nat (fold_right (fun g n => gw g + n) 0 s)) y /\
    (forall x' y', on_screen (cv_w c) (cv_h c) x' y' -> y' <> y ->
        cell_xy (cv_w c) l' x' y' = cell_xy (cv_w c) (cv_cells c) x' y').
Proof.
  intros s c x y fg bg at_ Hwf Hs HF.
  assert (TRIV : forall (c : canvas) x n, wf_frame (cv_w c) (cv_h c) (cv_cells c) -> row_free (cv_w c) (cv_cells c) x y ->
    exists l', Some c = Some (set_cells c l') /\ wf_frame (cv_w c) (cv_h c) l' /\ row_free (cv_w c) l' (x + Z.of_nat n) y /\
    (forall x' y', on_screen (cv_w c) (cv_h c) x' y' -> y' <> y ->
        cell_xy (cv_w c) l' x' y' = cell_xy (cv_w c) (cv_cells c) x' y')).
  { intros c0 x0 n Hw0 HF0. exists (cv_cells c0). rewrite set_cells_id. repeat split; auto.
    - apply Hw0.
    - now destruct Hw0 as [_ W]; destruct (W x1 y0 c1 H H0 H1) as [? _].
    - destruct Hw0 as [_ W]. now destruct (W x1 y0 c1 H H0 H1) as [_ W']; destruct (W' H2).
    - destruct Hw0 as [_ W]. now destruct (W x1 y0 c1 H H0 H1) as [_ W']; destruct (W' H2) as (_ & ? & _).
    - destruct Hw0 as [_ W]. now destruct (W x1 y0 c1 H H0 H1) as [_ W']; destruct (W' H2) as (_ & _ & ? & _).
    - destruct Hw0 as [_ W]. now destruct (W x1 y0 c1 H H0 H1) as [_ W']; destruct (W' H2) as (_ & _ & _ & ? & _).
    - destruct Hw0 as [_ W]. now destruct (W x1 y0 c1 H H0 H1) as [_ W']; destruct (W' H2) as (_ & _ & _ & _ & ?).
    - intros x' Hx'. apply HF0. lia. }
  unfold put_str.
  match goal with |- context [if ?b then Some c else _] => destruct b; [now apply TRIV|] end.
  match goal with |- context [if ?b then Some c else _] => destruct b eqn:Ey; [now apply TRIV|] end.
  set (clip := current_clip c). clearbody clip.
  revert c x Hwf HF Ey. induction Hs as [|g s Hg Hs IH]; intros c x Hwf HF Ey; cbn [put_str_loop].
  - now apply TRIV.
  - destruct (_ <=? x)%Z; [now apply TRIV|].
    destruct (put_grapheme_wf_free c x y g fg bg at_ clip Hwf Hg ltac:(lia) HF) as (l1 & E1 & W1 & F1 & O1).
    rewrite E1.
    destruct (IH (set_cells c l1) (x + Z.of_nat (gw g))%Z W1 F1 Ey) as (l2 & E2 & W2 & F2 & O2).
    exists l2. split; [exact E2|]. split; [exact W2|]. split.
    + cbn [fold_right]. rewrite Nat2Z.inj_add, Z.add_assoc. exact F2.
    + intros x' y' Hs' Hne. etransitivity; [exact (O2 x' y' Hs' Hne)|now apply O1].
Qed.

Lemma render_strip_wf : forall segs (c : canvas) x y,
  wf_frame (cv_w c) (cv_h c) (cv_cells c) -> Forall seg_sound segs ->
  row_free (cv_w c) (cv_cells c) x y ->
  exists l', render_strip gw space sym_eqb translucent resolve_bg c segs x y = Some (set_cells c l') /\
    wf_frame (cv_w c) (cv_h c) l' /\
    (forall x' y', on_screen (cv_w c) (cv_h c) x' y' -> y' <> y ->
        cell_xy (cv_w c) l' x' y' = cell_xy (cv_w c) (cv_cells c) x' y').
Proof.
  intros segs c x y Hwf Hs. revert c x Hwf. induction Hs as [|s r [Hs1 Hs2] Hr IH]; intros c x Hwf HF; cbn [render_strip].
  - exists (cv_cells c). rewrite set_cells_id. auto.
  - destruct (put_str_wf (s_text s) c x y (s_fg s) (s_bg s) (s_attrs s) Hwf Hs1 HF) as (l1 & E1 & W1 & F1 & O1).
    rewrite E1. rewrite <- Hs2 in F1.
    destruct (IH (set_cells c l1) _ W1 F1) as (l2 & E2 & W2 & O2).
    exists l2. split; [exact E2|]. split; [exact W2|]. intros x' y' Hs' Hne. etransitivity; [exact (O2 x' y' Hs' Hne)|now apply O1].
Qed.

Lemma render_strip_off : forall s (c : canvas) x y, ~ (0 <= y < Z.of_nat (cv_h c))%Z ->
  render_strip gw space sym_eqb translucent resolve_bg c s x y = Some c.
Proof.
  induction s as [|a s IHs]; intros c x y Hy; cbn [render_strip]; [reflexivity|]. unfold put_str at 1.
  match goal with |- context [if ?b then Some c else _] => destruct b; [now apply IHs|] end.
  match goal with |- context [if ?b then Some c else _] => destruct b eqn:?; [now apply IHs|] end. lia.
Qed.

Lemma render_strips_wf : forall strips (c : canvas) x y,
  wf_frame (cv_w c) (cv_h c) (cv_cells c) -> Forall (Forall seg_sound) strips ->
  (forall y', (y <= y')%Z -> (0 <= y' < Z.of_nat (cv_h c))%Z -> row_free (cv_w c) (cv_cells c) x y') ->
  exists l', render_strips gw space sym_eqb translucent resolve_bg c strips x y = Some (set_cells c l') /\
    wf_frame (cv_w c) (cv_h c) l'.
Proof.
  intros strips c x y Hwf Hs. revert c y Hwf. induction Hs as [|s r Hs Hr IH]; intros c y Hwf HF; cbn [render_strips].
  - exists (cv_cells c). rewrite set_cells_id. auto.
  - assert (ONE : exists l', render_strip gw space sym_eqb translucent resolve_bg c s x y = Some (set_cells c l') /\
      wf_frame (cv_w c) (cv_h c) l' /\
      (forall x' y', on_screen (cv_w c) (cv_h c) x' y' -> y' <> y ->
        cell_xy (cv_w c) l' x' y' = cell_xy (cv_w c) (cv_cells c) x' y')).
    { destruct (Z_lt_dec y 0) as [Hn|Hp]; [|destruct (Z_lt_dec y (Z.of_nat (cv_h c))) as [Hi|Ho]].
      2: { apply render_strip_wf; auto. apply HF; lia. }
      all: exists (cv_cells c); rewrite set_cells_id; split; [|auto].
      all: apply render_strip_off; lia. }
    destruct ONE as (l1 & E1 & W1 & O1). rewrite E1.
    destruct (IH (set_cells c l1) (y + 1)%Z W1) as (l2 & E2 & W2).
    { intros y' Hy' Hr' x' Hx' Hxr c' Ec. cbn in Hr', Hxr, Ec. rewrite O1 in Ec; [|split; auto|lia].
      apply (HF y' ltac:(lia) Hr' x' Hx' Hxr c' Ec). }
    exists l2. split; [exact E2|exact W2].
Qed.

End Frames.
