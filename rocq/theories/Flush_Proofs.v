From Coq Require Import ZArith List Bool Arith Lia ZifyBool ZifyNat.
From Verif Require Import Canvas_Model Canvas_Spec Canvas_Proofs.
Import ListNotations.
Local Open Scope nat_scope.

Section Flush.
Context {Sym Color Bg : Type}.
Variable gw : Sym -> nat.
Variable space : Sym.
Variable sym_eqb : Sym -> Sym -> bool.
Variable color_eqb : Color -> Color -> bool.
Variable reset : Color.
Variable translucent : option Bg -> bool.
Variable resolve_bg : option Bg -> option Color -> option Color.
Hypothesis sym_ok : forall a b, sym_eqb a b = true <-> a = b.
Hypothesis color_ok : forall a b, color_eqb a b = true <-> a = b.

Notation cell := (@cell Sym Color).
Notation canvas := (@canvas Sym Color).
Notation tcell := (@tcell Sym Color).
Notation pen := (@pen Color).
Notation term := (@term Sym Color).
Notation cmd := (@cmd Sym Color).
Notation fstate := (@fstate Color).
Notation flush_cell := (@flush_cell Sym Color color_eqb reset).
Notation emit_cell := (@emit_cell Sym Color color_eqb reset).
Notation exec := (@exec Sym Color gw reset).
Notation exec_all := (@exec_all Sym Color gw reset).
Notation show_cell := (@show_cell Sym Color reset).
Notation shows := (@shows Sym Color reset).
Notation wf_frame := (@wf_frame Sym Color gw).
Notation unwrap := (unwrap_or_reset reset).

Lemma attrs_eqb_ok : forall a b, attrs_eqb a b = true <-> a = b.
Proof.
  intros [] []; unfold attrs_eqb; cbn. rewrite !andb_true_iff, !eqb_true_iff. split.
  - intros (((((-> & ->) & ->) & ->) & ->) & ->). reflexivity.
  - intros E. injection E as -> -> -> -> -> ->. repeat split.
Qed.

Lemma ocolor_eqb_ok : forall a b, ocolor_eqb color_eqb a b = true <-> a = b.
Proof.
  intros [a|] [b|]; cbn; try (split; congruence). rewrite color_ok. split; congruence.
Qed.

Lemma cell_eqb_ok : forall a b : cell, cell_eqb sym_eqb color_eqb a b = true <-> a = b.
Proof.
  intros [s w k f b a] [s' w' k' f' b' a']; unfold cell_eqb; cbn.
  rewrite !andb_true_iff, !ocolor_eqb_ok, attrs_eqb_ok, sym_ok, Nat.eqb_eq, eqb_true_iff. split.
  - intros (((((-> & ->) & ->) & ->) & ->) & ->). reflexivity.
  - intros E. injection E as -> -> -> -> -> ->. repeat split.
Qed.

Lemma exec_all_app : forall w h t a b, exec_all w h t (a ++ b) = exec_all w h (exec_all w h t a) b.
Proof. intros. apply fold_left_app. Qed.

Lemma exec_all_cons : forall w h t a b, exec_all w h t (a :: b) = exec_all w h (exec w h t a) b.
Proof. reflexivity. Qed.

(** *** the pen *)

Definition pen_of (st : fstate) : pen := Pen (unwrap (f_fg st)) (unwrap (f_bg st)) (f_attrs st).
Definition pen_default : pen := Pen reset reset attrs_default.
Definition cell_pen (c : cell) : pen := Pen (unwrap (c_fg c)) (unwrap (c_bg c)) (c_attrs c).

Definition set_pen (t : term) (p : pen) : term := Term (t_scr t) (t_x t) (t_y t) p.

Lemma exec_reset : forall w h t, exec_all w h t (reset_cmds reset) = set_pen t pen_default.
Proof. reflexivity. Qed.

(** emit_cell = set the pen of the cell, then print *)
Lemma emit_cell_exec : forall w h c st k st' t,
  emit_cell c st = (k, st') -> t_pen t = pen_of st ->
  exec_all w h t k = exec w h (set_pen t (cell_pen c)) (Print (c_sym c)) /\
  pen_of st' = cell_pen c /\ f_x st' = f_x st /\ f_y st' = f_y st.
Proof.
  intros w h c st k st' t E Hp. unfold Canvas_Model.emit_cell in E.
  assert (COL : forall fg1 bg1 t1 at1, t_pen t1 = Pen (unwrap fg1) (unwrap bg1) at1 -> at1 = c_attrs c ->
    exec_all w h t1 ((if ocolor_eqb color_eqb (c_fg c) fg1 then [] else [SetFg (unwrap (c_fg c))]) ++
       (if ocolor_eqb color_eqb (c_bg c) bg1 then [] else [SetBg (unwrap (c_bg c))]) ++ [Print (c_sym c)])
    = exec w h (set_pen t1 (cell_pen c)) (Print (c_sym c)) /\
    (if ocolor_eqb color_eqb (c_fg c) fg1 then fg1 else c_fg c) = c_fg c /\
    (if ocolor_eqb color_eqb (c_bg c) bg1 then bg1 else c_bg c) = c_bg c).
  { intros fg1 bg1 [scr tx ty pn] at1 Hpen ->. cbn in Hpen. subst pn.
    destruct (ocolor_eqb color_eqb (c_fg c) fg1) eqn:E1; [apply ocolor_eqb_ok in E1; subst fg1|];
    (destruct (ocolor_eqb color_eqb (c_bg c) bg1) eqn:E2; [apply ocolor_eqb_ok in E2; subst bg1|]);
    repeat split; reflexivity. }
  destruct (attrs_eqb (c_attrs c) (f_attrs st)) eqn:Ea.
  - apply attrs_eqb_ok in Ea. injection E as <- <-.
    destruct (COL (f_fg st) (f_bg st) t (f_attrs st) Hp (eq_sym Ea)) as (A & B & C).
    split; [exact A|]. unfold pen_of, cell_pen; cbn. rewrite B, C, Ea. auto.
  - injection E as <- <-.
    destruct (COL None None (set_pen t (Pen reset reset (c_attrs c))) (c_attrs c) eq_refl eq_refl) as (A & B & C).
    split.
    + cbn [app]. rewrite exec_all_cons, exec_all_app.
      match goal with |- exec_all w h (exec_all w h ?t1 ?ak) _ = _ =>
        assert (HA : exec_all w h t1 ak = set_pen t (Pen reset reset (c_attrs c))) end.
      { clear. destruct (c_attrs c) as [[] [] [] [] [] []]; reflexivity. }
      rewrite HA, A. reflexivity.
    + unfold pen_of, cell_pen; cbn [f_fg f_bg f_attrs f_x f_y]. rewrite B, C. auto.
Qed.

(** *** the cursor *)

Definition cur_ok (w : nat) (st : fstate) (t : term) : Prop :=
  forall x y : nat, x < w -> f_x st = Z.of_nat x -> f_y st = Z.of_nat y ->
    (t_x t = x /\ t_y t = y) \/ (t_x t = w /\ x = 0 /\ S (t_y t) = y).

(** printing one cell of the frame at its own place *)
Lemma flush_cell_exec : forall w h x y c st k st' t,
  x < w -> y < h -> c_width c = gw (c_sym c) -> 1 <= c_width c -> x + c_width c <= w ->
  flush_cell w (y * w + x) c st = (k, st') -> t_pen t = pen_of st -> cur_ok w st t ->
  let t' := exec_all w h t k in
  t_scr t' = set_row (t_scr t) y (print_row (t_scr t y) x (c_sym c) (c_width c) (cell_pen c)) /\
  t_pen t' = pen_of st' /\ cur_ok w st' t'.
Proof.
  intros w h x y c st k st' t Hx Hy Hgw H1 Hfit E Hp Hc t'.
  unfold Canvas_Model.flush_cell in E.
  assert (Em : (y * w + x) mod w = x) by (rewrite Nat.add_comm, Nat.mod_add by lia; now apply Nat.mod_small).
  assert (Ed : (y * w + x) / w = y) by (rewrite Nat.add_comm, Nat.div_add by lia; rewrite Nat.div_small by lia; lia).
  rewrite Em, Ed in E.
  set (jump := negb (f_x st =? Z.of_nat x)%Z || negb (f_y st =? Z.of_nat y)%Z) in E.
  set (st1 := if jump then FState None None attrs_default (f_x st) (f_y st) else st) in E.
  destruct (emit_cell c st1) as [k1 st2] eqn:Ee. injection E as <- <-.
  set (t1 := exec_all w h t (if jump then MoveTo x y :: reset_cmds reset else [])).
  assert (P1 : t_pen t1 = pen_of st1).
  { unfold t1, st1. destruct jump; [reflexivity|exact Hp]. }
  assert (S1 : t_scr t1 = t_scr t) by (unfold t1; destruct jump; reflexivity).
  assert (C1 : (t_x t1 = x /\ t_y t1 = y) \/ (t_x t1 = w /\ x = 0 /\ S (t_y t1) = y)).
  { unfold t1. destruct jump eqn:Ej; [left; split; reflexivity|]. unfold jump in Ej. apply Hc; lia. }
  destruct (emit_cell_exec w h c st1 k1 st2 t1 Ee P1) as (EX & EP & _ & _).
  assert (T' : t' = exec w h (set_pen t1 (cell_pen c)) (Print (c_sym c))).
  { unfold t'. rewrite exec_all_app. fold t1. exact EX. }
  assert (R : t_scr t' = set_row (t_scr t) y (print_row (t_scr t y) x (c_sym c) (c_width c) (cell_pen c))
              /\ t_pen t' = cell_pen c /\ t_x t' = x + c_width c /\ t_y t' = y).
  { rewrite T'. unfold Canvas_Spec.exec, set_pen. cbn [t_x t_y t_scr t_pen]. rewrite S1, <- Hgw.
    destruct C1 as [[-> ->]|(-> & -> & Hy')].
    - destruct (Nat.ltb_spec w (x + c_width c)); [lia|]. cbn [andb]. auto.
    - destruct (Nat.ltb_spec w (w + c_width c)); [|lia]. destruct (Nat.leb_spec h (S (t_y t1))); [lia|].
      cbn [andb]. rewrite Hy'. auto. }
  destruct R as (R1 & R2 & R3 & R4). split; [exact R1|]. split.
  - rewrite R2, <- EP. destruct (Z.of_nat w <=? _)%Z; reflexivity.
  - intros x' y' Hx' Ex Ey. rewrite R3, R4.
    destruct (Z.leb_spec (Z.of_nat w) (Z.of_nat x + Z.of_nat (c_width c))); cbn [f_x f_y] in Ex, Ey; lia.
Qed.

(** *** the screen *)

Lemma all_tails_spec : forall (row : nat -> tcell) a n,
  all_tails row a n = true <-> forall j, a <= j < a + n -> row j = TTail.
Proof.
  intros row a n. unfold all_tails. rewrite forallb_forall. split.
  - intros H j Hj. specialize (H j ltac:(apply in_seq; lia)). destruct (row j); try discriminate. reflexivity.
  - intros H j Hj. apply in_seq in Hj. rewrite H by lia. reflexivity.
Qed.

Lemma print_row_left : forall (row : nat -> tcell) p s w pn j, j < p -> row p <> TTail ->
  print_row row p s w pn j = row j.
Proof.
  intros row p s w pn j Hj Hn. unfold print_row. destruct (Nat.ltb_spec j p); [|lia].
  destruct (all_tails row (j + 1) (p - j)) eqn:E; [|reflexivity].
  rewrite all_tails_spec in E. exfalso. apply Hn. apply E. lia.
Qed.

Lemma print_row_head : forall (row : nat -> tcell) p s w pn, print_row row p s w pn p = THead s w pn.
Proof. intros. unfold print_row. rewrite Nat.ltb_irrefl, Nat.eqb_refl. reflexivity. Qed.

Lemma print_row_tail : forall (row : nat -> tcell) p s w pn j, p < j < p + w -> print_row row p s w pn j = TTail.
Proof.
  intros. unfold print_row. destruct (Nat.ltb_spec j p); [lia|]. destruct (Nat.eqb_spec j p); [lia|].
  destruct (Nat.ltb_spec j (p + w)); [reflexivity|lia].
Qed.

(** to the right: unchanged from the first non-tail on, and never a new tail *)
Lemma print_row_right : forall (row : nat -> tcell) p s w pn j, 1 <= w -> p + w <= j ->
  (forall m, p + w <= m <= j -> row m <> TTail -> print_row row p s w pn j = row j) /\
  (print_row row p s w pn j = row j \/ print_row row p s w pn j = TJunk) /\
  (j = p + w -> print_row row p s w pn j <> TTail).
Proof.
  intros row p s w pn j Hw Hj. unfold print_row. destruct (Nat.ltb_spec j p); [lia|].
  destruct (Nat.eqb_spec j p); [lia|]. destruct (Nat.ltb_spec j (p + w)); [lia|].
  destruct (all_tails row (p + w) (j + 1 - (p + w))) eqn:E.
  - rewrite all_tails_spec in E. split; [|split].
    + intros m Hm Hn. exfalso. apply Hn, E. lia.
    + auto.
    + intros _. discriminate.
  - split; [auto|]. split; [auto|]. intros -> Ht.
    assert (all_tails row (p + w) (p + w + 1 - (p + w)) = true); [|congruence].
    apply all_tails_spec. intros j' Hj'. replace j' with (p + w) by lia. exact Ht.
Qed.

(** *** the generic loop: flagged heads are printed *)

Fixpoint gen_loop (w i : nat) (st : fstate) (l : list (bool * cell)) : list cmd :=
  match l with
  | [] => []
  | (flag, c) :: r =>
      if flag && negb (c_cont c) then
        let '(k, st') := flush_cell w i c st in k ++ gen_loop w (S i) st' r
      else gen_loop w (S i) st r
  end.

Lemma full_loop_gen : forall w l i st, full_loop color_eqb reset w i st l = gen_loop w i st (map (fun c => (true, c)) l).
Proof.
  intros w. induction l as [|c r IH]; intros i st; [reflexivity|]. cbn [full_loop map gen_loop].
  destruct (c_cont c); cbn [negb andb]; [apply IH|].
  destruct (flush_cell w i c st) as [k st']. now rewrite IH.
Qed.

Definition flags (l prev : list cell) : list (bool * cell) :=
  map (fun p => (negb (cell_eqb sym_eqb color_eqb (fst p) (snd p)), fst p)) (combine l prev).

Lemma diff_loop_gen : forall w l prev i st,
  diff_loop sym_eqb color_eqb reset w i st l prev = gen_loop w i st (flags l prev).
Proof.
  intros w. induction l as [|c r IH]; intros prev i st; [reflexivity|].
  destruct prev as [|p pr]; [reflexivity|]. cbn [diff_loop flags combine map gen_loop fst snd].
  destruct (cell_eqb sym_eqb color_eqb c p); cbn [negb andb]; [apply IH|].
  destruct (c_cont c); cbn [negb andb]; [apply IH|].
  destruct (flush_cell w i c st) as [k st']. now rewrite IH.
Qed.

(** *** frames as functions *)

Variables (w h : nat).
Variable N : list (bool * cell).
Definition cells_N : list cell := map snd N.
Hypothesis Hwf : wf_frame w h cells_N.

Definition at_ (x y : nat) (c : cell) : Prop := nth_error cells_N (y * w + x) = Some c.

Lemma wf_at : forall x y c, x < w -> y < h -> at_ x y c ->
    (x = 0 -> c_cont c = false) /\
    (c_cont c = false ->
       c_width c = gw (c_sym c) /\ 1 <= c_width c /\ x + c_width c <= w /\
       (forall k c', 1 <= k < c_width c -> at_ (x + k) y c' -> c_cont c' = true) /\
       (forall c', x + c_width c < w -> at_ (x + c_width c) y c' -> c_cont c' = false)).
Proof.
  intros x y c Hx Hy Ha. destruct Hwf as [_ H]. destruct (H x y c Hx Hy Ha) as [A B]. split; [exact A|].
  intros Hc. destruct (B Hc) as (B1 & B2 & B3 & B4 & B5). repeat split; auto; unfold at_;
  intros; [eapply B4|eapply B5]; eauto; rewrite <- Nat.add_assoc; eassumption.
Qed.

Lemma at_exists : forall x y, x < w -> y < h -> exists c, at_ x y c.
Proof.
  intros x y Hx Hy. unfold at_. destruct (nth_error cells_N (y * w + x)) eqn:E; [eauto|].
  apply nth_error_None in E. destruct Hwf as [HL _]. nia.
Qed.

Lemma at_fun : forall x y a b, at_ x y a -> at_ x y b -> a = b.
Proof. unfold at_. congruence. Qed.

(** every position belongs to a glyph *)
Lemma head_of : forall y x, x < w -> y < h ->
  exists hd c, hd <= x < hd + c_width c /\ at_ hd y c /\ c_cont c = false.
Proof.
  intros y. induction x as [x IH] using lt_wf_ind. intros Hx Hy.
  destruct (at_exists x y Hx Hy) as [c Ha]. destruct (wf_at x y c Hx Hy Ha) as [Z0 W].
  destruct (c_cont c) eqn:Ec.
  - destruct x as [|x]; [specialize (Z0 eq_refl); congruence|].
    destruct (IH x) as (hd & ch & Hh & Hah & Hc); [lia..|].
    exists hd, ch. split; [|auto]. destruct (wf_at hd y ch ltac:(lia) Hy Hah) as [_ W'].
    destruct (W' Hc) as (_ & _ & _ & _ & Wn).
    destruct (Nat.eq_dec (S x) (hd + c_width ch)) as [E|]; [|lia].
    rewrite E in Ha. rewrite (Wn c) in Ec; [discriminate|lia|exact Ha].
  - exists x, c. destruct (W eq_refl) as (_ & ? & _). split; [lia|auto].
Qed.

Lemma head_ends : forall y x hd ch c, x < w -> y < h -> hd < x -> at_ hd y ch -> c_cont ch = false ->
  at_ x y c -> c_cont c = false -> hd + c_width ch <= x.
Proof.
  intros y x hd ch c Hx Hy Hlt Hh Hch Ha Hc.
  destruct (le_lt_dec (hd + c_width ch) x); [assumption|exfalso].
  destruct (wf_at hd y ch ltac:(lia) Hy Hh) as [_ W]. destruct (W Hch) as (_ & _ & _ & Wk & _).
  specialize (Wk (x - hd) c ltac:(lia)). rewrite Wk in Hc; [discriminate|].
  replace (hd + (x - hd)) with x by lia. exact Ha.
Qed.

(** unflagged heads already look right on the initial screen *)
Variable scr0 : nat -> nat -> tcell.
Definition flag_at (x y : nat) (f : bool) : Prop := exists c, nth_error N (y * w + x) = Some (f, c).
Hypothesis Hunflagged : forall x y c, x < w -> y < h -> flag_at x y false -> at_ x y c -> c_cont c = false ->
  scr0 y x = show_cell c /\ (forall k, 1 <= k < c_width c -> scr0 y (x + k) = TTail) /\
  (x + c_width c < w -> scr0 y (x + c_width c) <> TTail).

(** row-major order *)
Notation pos x y := (y * w + x).

Record Inv (i : nat) (scr : nat -> nat -> tcell) : Prop := {
  I_done : forall x y c, x < w -> y < h -> pos x y < i -> at_ x y c -> scr y x = show_cell c;
  I_spill : forall x y c k, x < w -> y < h -> pos x y < i -> at_ x y c -> c_cont c = false ->
              k < c_width c -> i <= pos x y + k -> scr y (x + k) = TTail;
  I_unfl : forall x y c, x < w -> y < h -> i <= pos x y -> flag_at x y false -> at_ x y c -> c_cont c = false ->
              scr y x = show_cell c /\ (forall k, 1 <= k < c_width c -> scr y (x + k) = TTail);
  I_next : forall x y c, x < w -> y < h -> pos x y < i -> at_ x y c -> c_cont c = false ->
              i <= pos x y + c_width c -> x + c_width c < w -> scr y (x + c_width c) <> TTail;
  I_rest : forall x y, x < w -> y < h -> i <= pos x y ->
              (forall hd c, hd <= x -> at_ hd y c -> c_cont c = false -> pos hd y < i -> hd + c_width c <= x) ->
              scr y x = scr0 y x \/ scr y x = TJunk }.

Lemma pos_split : forall i, i < w * h -> exists x y, x < w /\ y < h /\ i = pos x y.
Proof.
  intros i Hi. assert (w <> 0) by nia. exists (i mod w), (i / w). split; [now apply Nat.mod_upper_bound|].
  split; [apply Nat.div_lt_upper_bound; lia|]. rewrite Nat.mul_comm. apply Nat.div_mod. assumption.
Qed.

Lemma pos_inj : forall x y x' y', x < w -> x' < w -> pos x y = pos x' y' -> x = x' /\ y = y'.
Proof. intros. assert (y = y') by nia. subst. split; [lia|reflexivity]. Qed.

Lemma pos_lt_row : forall x y x' y', x < w -> x' < w -> pos x y < pos x' y' -> y < y' \/ (y = y' /\ x < x').
Proof. intros. destruct (lt_eq_lt_dec y y') as [[?|?]|?]; [auto|right; subst; lia|nia]. Qed.

Lemma pos_le_row : forall x y x' y', x < w -> x' < w -> pos x y <= pos x' y' -> y < y' \/ (y = y' /\ x <= x').
Proof. intros. destruct (lt_eq_lt_dec y y') as [[?|?]|?]; [auto|right; subst; lia|nia]. Qed.

Lemma Inv_init : Inv 0 scr0.
Proof.
  constructor; try (intros; lia).
  - intros x y c Hx Hy _ Hf Ha Hc. destruct (Hunflagged x y c Hx Hy Hf Ha Hc) as (A & B & _). auto.
  - auto.
Qed.

Lemma Inv_cont : forall x y c scr, x < w -> y < h -> at_ x y c -> c_cont c = true ->
  Inv (pos x y) scr -> Inv (S (pos x y)) scr.
Proof.
  intros x y c scr Hx Hy Ha Hc [D S U Nx R]. constructor.
  - intros x' y' c' Hx' Hy' Hlt Ha'. destruct (Nat.eq_dec (pos x' y') (pos x y)) as [E|E]; [|apply D; auto; lia].
    apply pos_inj in E; try assumption. destruct E as [-> ->]. rewrite (at_fun _ _ _ _ Ha' Ha).
    unfold Canvas_Spec.show_cell. rewrite Hc.
    destruct (head_of y x Hx Hy) as (hd & ch & Hh & Hah & Hch).
    assert (hd <> x). { intros ->. rewrite (at_fun _ _ _ _ Hah Ha) in Hch. congruence. }
    replace x with (hd + (x - hd)) by lia. apply (S hd y ch); auto; lia.
  - intros x' y' c' k Hx' Hy' Hlt Ha' Hc' Hk Hge.
    destruct (Nat.eq_dec (pos x' y') (pos x y)) as [E|E].
    + apply pos_inj in E; try assumption. destruct E as [-> ->]. rewrite (at_fun _ _ _ _ Ha' Ha) in Hc'. congruence.
    + apply (S x' y' c'); auto; lia.
  - intros x' y' c' Hx' Hy' Hge. apply U; auto. lia.
  - intros x' y' c' Hx' Hy' Hlt Ha' Hc' Hge Hw.
    destruct (Nat.eq_dec (pos x' y') (pos x y)) as [E|E].
    + apply pos_inj in E; try assumption. destruct E as [-> ->]. rewrite (at_fun _ _ _ _ Ha' Ha) in Hc'. congruence.
    + apply (Nx x' y' c'); auto; lia.
  - intros x' y' Hx' Hy' Hge Hno. apply R; [exact Hx'|exact Hy'|lia|].
    intros hd c' Hle Ha' Hc' Hlt. apply Hno; auto; lia.
Qed.

Lemma Inv_skip : forall x y c scr, x < w -> y < h -> at_ x y c -> c_cont c = false -> flag_at x y false ->
  Inv (pos x y) scr -> Inv (S (pos x y)) scr.
Proof.
  intros x y c scr Hx Hy Ha Hc Hf [D S U Nx R].
  destruct (U x y c Hx Hy (le_n _) Hf Ha Hc) as [U1 U2].
  destruct (wf_at x y c Hx Hy Ha) as [_ W]. destruct (W Hc) as (_ & W1 & W2 & W3 & W4).
  constructor.
  - intros x' y' c' Hx' Hy' Hlt Ha'. destruct (Nat.eq_dec (pos x' y') (pos x y)) as [E|E]; [|apply D; auto; lia].
    apply pos_inj in E; try assumption. destruct E as [-> ->]. now rewrite (at_fun _ _ _ _ Ha' Ha).
  - intros x' y' c' k Hx' Hy' Hlt Ha' Hc' Hk Hge.
    destruct (Nat.eq_dec (pos x' y') (pos x y)) as [E|E].
    + apply pos_inj in E; try assumption. destruct E as [-> ->]. rewrite (at_fun _ _ _ _ Ha' Ha) in Hk.
      apply U2. lia.
    + apply (S x' y' c'); auto; lia.
  - intros x' y' c' Hx' Hy' Hge. apply U; auto. lia.
  - intros x' y' c' Hx' Hy' Hlt Ha' Hc' Hge Hw.
    destruct (Nat.eq_dec (pos x' y') (pos x y)) as [E|E].
    + apply pos_inj in E; try assumption. destruct E as [-> ->].
      rewrite (at_fun _ _ _ _ Ha' Ha) in *.
      destruct (R (x + c_width c) y) as [E|E]; [lia|lia|lia| | |rewrite E; discriminate].
      * intros hd ch Hle Hah Hch Hlt'. apply pos_lt_row in Hlt'; [|lia..].
        assert (hd + c_width ch <= x); [|lia].
        apply (head_ends y x hd ch c); auto. lia.
      * rewrite E. destruct (Hunflagged x y c Hx Hy Hf Ha Hc) as (_ & _ & H'). apply H'. assumption.
    + apply (Nx x' y' c'); auto; lia.
  - intros x' y' Hx' Hy' Hge Hno. apply R; [exact Hx'|exact Hy'|lia|].
    intros hd c' Hle Ha' Hc' Hlt. apply Hno; auto; lia.
Qed.

Lemma set_row_same : forall (scr : nat -> nat -> tcell) y row, set_row scr y row y = row.
Proof. intros. unfold set_row. now rewrite Nat.eqb_refl. Qed.

Lemma set_row_other : forall (scr : nat -> nat -> tcell) y row y', y' <> y -> set_row scr y row y' = scr y'.
Proof. intros. unfold set_row. destruct (Nat.eqb_spec y' y); congruence. Qed.

Lemma Inv_print : forall x y c scr, x < w -> y < h -> at_ x y c -> c_cont c = false ->
  Inv (pos x y) scr ->
  Inv (S (pos x y)) (set_row scr y (print_row (scr y) x (c_sym c) (c_width c) (cell_pen c))).
Proof.
  intros x y c scr Hx Hy Ha Hc [D S U Nx R].
  destruct (wf_at x y c Hx Hy Ha) as [_ W]. destruct (W Hc) as (_ & W1 & W2 & W3 & W4).
  set (row' := print_row (scr y) x (c_sym c) (c_width c) (cell_pen c)).
  assert (SHOW : show_cell c = THead (c_sym c) (c_width c) (cell_pen c)).
  { unfold Canvas_Spec.show_cell. rewrite Hc. reflexivity. }
  (* the place we print at is not the tail of an earlier glyph on the screen *)
  assert (NT : 0 < x -> scr y x <> TTail).
  { intros H0. destruct (head_of y (x - 1)) as (hd & ch & Hh & Hah & Hch); [lia|lia|].
    assert (hd + c_width ch <= x) by (apply (head_ends y x hd ch c); auto; lia).
    replace x with (hd + c_width ch) by lia. apply (Nx hd y ch); auto; lia. }
  assert (LEFT : forall j, j < x -> row' j = scr y j).
  { intros j Hj. apply print_row_left; [exact Hj|]. apply NT. lia. }
  assert (RIGHT := fun j H => print_row_right (scr y) x (c_sym c) (c_width c) (cell_pen c) j W1 H).
  fold row' in RIGHT.
  constructor.
  - intros x' y' c' Hx' Hy' Hlt Ha'. destruct (Nat.eq_dec (pos x' y') (pos x y)) as [E|E].
    + apply pos_inj in E; try assumption. destruct E as [-> ->]. rewrite (at_fun _ _ _ _ Ha' Ha), set_row_same.
      rewrite SHOW. apply print_row_head.
    + assert (Hlt' : pos x' y' < pos x y) by lia. pose proof (pos_lt_row _ _ _ _ Hx' Hx Hlt') as [Hr|[-> Hr]].
      * rewrite set_row_other by lia. apply D; auto.
      * rewrite set_row_same, LEFT by lia. apply D; auto.
  - intros x' y' c' k Hx' Hy' Hlt Ha' Hc' Hk Hge.
    destruct (Nat.eq_dec (pos x' y') (pos x y)) as [E|E].
    + apply pos_inj in E; try assumption. destruct E as [-> ->]. rewrite (at_fun _ _ _ _ Ha' Ha) in Hk.
      rewrite set_row_same. apply print_row_tail. lia.
    + exfalso. assert (Hlt' : pos x' y' < pos x y) by lia.
      destruct (wf_at x' y' c' Hx' Hy' Ha') as [_ W']. destruct (W' Hc') as (_ & _ & W2' & _).
      pose proof (pos_lt_row _ _ _ _ Hx' Hx Hlt') as [Hr|[-> Hr]].
      * nia.
      * assert (x' + c_width c' <= x) by (apply (head_ends y x x' c' c); auto). lia.
  - intros x' y' c' Hx' Hy' Hge Hf' Ha' Hc'.
    destruct (U x' y' c' Hx' Hy' ltac:(lia) Hf' Ha' Hc') as [U1 U2].
    destruct (Nat.eq_dec y' y) as [->|Hne]; [|rewrite set_row_other by assumption; auto].
    rewrite set_row_same. assert (Hgt : x < x') by lia.
    assert (x + c_width c <= x') by (apply (head_ends y x' x c c'); auto).
    assert (HN : scr y x' <> TTail).
    { rewrite U1. unfold Canvas_Spec.show_cell. rewrite Hc'. discriminate. }
    split.
    + destruct (RIGHT x' ltac:(lia)) as (A & _). rewrite (A x'); auto.
    + intros k Hk. destruct (RIGHT (x' + k) ltac:(lia)) as (A & _). rewrite (A x'); auto. lia.
  - intros x' y' c' Hx' Hy' Hlt Ha' Hc' Hge Hw.
    destruct (Nat.eq_dec (pos x' y') (pos x y)) as [E|E].
    + apply pos_inj in E; try assumption. destruct E as [-> ->]. rewrite (at_fun _ _ _ _ Ha' Ha) in *.
      rewrite set_row_same. destruct (RIGHT (x + c_width c) ltac:(lia)) as (_ & _ & A). now apply A.
    + exfalso. assert (Hlt' : pos x' y' < pos x y) by lia.
      pose proof (pos_lt_row _ _ _ _ Hx' Hx Hlt') as [Hr|[-> Hr]].
      * nia.
      * assert (x' + c_width c' <= x) by (apply (head_ends y x x' c' c); auto). lia.
  - intros x' y' Hx' Hy' Hge Hno.
    assert (R' : scr y' x' = scr0 y' x' \/ scr y' x' = TJunk).
    { apply R; [exact Hx'|exact Hy'|lia|]. intros hd c' Hle Ha' Hc' Hlt. apply Hno; auto; lia. }
    destruct (Nat.eq_dec y' y) as [->|Hne]; [|rewrite set_row_other by assumption; auto].
    rewrite set_row_same. assert (x + c_width c <= x') by (apply Hno; auto; lia).
    destruct (RIGHT x' ltac:(lia)) as (_ & [A|A] & _); rewrite A; auto.
Qed.

Lemma nth_split : forall A (l : list A) i x, nth_error l i = Some x -> skipn i l = x :: skipn (S i) l.
Proof.
  intros A. induction l as [|y l IH]; intros [|i] x H; try discriminate; cbn in *.
  - congruence.
  - rewrite (IH i x H). reflexivity.
Qed.

Lemma gen_loop_ok : forall n i st t, i + n = w * h ->
  Inv i (t_scr t) -> t_pen t = pen_of st -> cur_ok w st t ->
  Inv (w * h) (t_scr (exec_all w h t (gen_loop w i st (skipn i N)))).
Proof.
  assert (HL : length N = w * h).
  { destruct Hwf as [HL _]. unfold cells_N in HL. now rewrite map_length in HL. }
  induction n as [|n IH]; intros i st t Hi HI Hp Hcur.
  - rewrite skipn_all2 by lia. cbn. replace (w * h) with i by lia. exact HI.
  - destruct (pos_split i ltac:(lia)) as (x & y & Hx & Hy & ->).
    destruct (nth_error N (pos x y)) as [[f c]|] eqn:E; [|apply nth_error_None in E; lia].
    assert (Ha : at_ x y c). { unfold at_, cells_N. rewrite nth_error_map, E. reflexivity. }
    rewrite (nth_split _ _ _ _ E). cbn [gen_loop].
    destruct (c_cont c) eqn:Hc.
    + rewrite andb_false_r. apply IH; auto; [lia|]. eapply Inv_cont; eauto.
    + rewrite andb_true_r. destruct f.
      * destruct (flush_cell w (pos x y) c st) as [k st'] eqn:Ef.
        destruct (wf_at x y c Hx Hy Ha) as [_ W]. destruct (W Hc) as (W0 & W1 & W2 & _).
        destruct (flush_cell_exec w h x y c st k st' t Hx Hy W0 W1 W2 Ef Hp Hcur) as (A & B & C).
        rewrite exec_all_app. apply IH; auto; [lia|]. rewrite A. apply Inv_print; auto.
      * apply IH; auto; [lia|]. eapply Inv_skip; eauto. exists c. exact E.
Qed.

Lemma Inv_shows : forall t, Inv (w * h) (t_scr t) -> shows w h t cells_N.
Proof. intros t HI x y c Hx Hy Ha. apply (I_done _ _ HI); auto. nia. Qed.

End Flush.
