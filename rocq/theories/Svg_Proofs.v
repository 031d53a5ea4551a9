(** Lemmas on the SVG export. *)
From Coq Require Import String ZArith List Bool Arith Lia.
From Coq Require DecimalString DecimalNat.
From Verif Require Import Text_Model Canvas_Model Keys_Proofs Svg_Model Svg_Spec.
Import ListNotations.
Open Scope nat_scope.

Lemma color_eqb_iff : forall a b, color_eqb a b = true <-> a = b.
Proof.
  intros [r g b|n] [r' g' b'|m]; cbn; split; intros H; try discriminate; try (injection H; intros; subst).
  - apply andb_true_iff in H. destruct H as [H H3]. apply andb_true_iff in H. destruct H as [H1 H2].
    apply Z.eqb_eq in H1, H2, H3. congruence.
  - now rewrite !Z.eqb_refl.
  - apply Z.eqb_eq in H. congruence.
  - apply Z.eqb_refl.
Qed.
Lemma ocolor_eqb_iff : forall a b, ocolor_eqb color_eqb a b = true <-> a = b.
Proof.
  intros [a|] [b|]; cbn; split; intros H; try discriminate; try reflexivity.
  - apply color_eqb_iff in H. congruence.
  - apply color_eqb_iff. congruence.
Qed.
Lemma attrs_eqb_iff : forall a b, attrs_eqb a b = true <-> a = b.
Proof.
  intros [a1 a2 a3 a4 a5 a6] [b1 b2 b3 b4 b5 b6]. unfold attrs_eqb. cbn. rewrite !andb_true_iff, !Bool.eqb_true_iff.
  split; [intros; intuition congruence|intros H; injection H; intros; subst; tauto].
Qed.

(** ** Backgrounds *)

(** the background at column [j], while a run is being collected *)
Definition bg_at (x start : nat) (run : option color) (l : list cell) (j : nat) : option color :=
  if j <? start then None
  else if j <? x then run
  else match nth_error l (j - x) with Some c => c_bg c | None => None end.

Lemma flush_bg_in : forall y x start run r, In r (flush_bg y x start run) <->
  exists b, run = Some b /\ r = Rect (color_to_hex b) start y (x - start).
Proof.
  intros y x start [b|] r; cbn; split.
  - intros [<-|[]]. eauto.
  - intros (b' & E & ->). injection E as ->. now left.
  - intros [].
  - intros (b' & E & _). discriminate.
Qed.

Lemma bg_row_spec : forall l y x start run, start <= x ->
  (start = x -> run = None) ->
  (forall j b, bg_at x start run l j = Some b ->
     exists r, In r (bg_row y x start run l) /\ rect_covers r j y /\ r_fill r = color_to_hex b) /\
  (forall r, In r (bg_row y x start run l) -> start <= r_x r /\ r_x r + r_w r <= x + length l /\ 0 < r_w r /\ r_y r = y /\
     forall j, r_x r <= j < r_x r + r_w r -> exists b, bg_at x start run l j = Some b /\ r_fill r = color_to_hex b).
Proof.
  induction l as [|c l IH]; intros y x start run LE Z0.
  - assert (E : bg_row y x start run [] = flush_bg y x start run).
    { cbn. destruct run; reflexivity. }
    rewrite E. split.
    + intros j b H. unfold bg_at in H. destruct (Nat.ltb_spec j start); [discriminate|].
      destruct (Nat.ltb_spec j x); [|destruct (j - x); discriminate].
      subst run. eexists. split; [apply flush_bg_in; eauto|]. cbn. split; [split; [reflexivity|]; cbn; lia|reflexivity].
    + intros r H. apply flush_bg_in in H. destruct H as (b & -> & ->). cbn.
      assert (start < x) by (destruct (Nat.eq_dec start x) as [e|]; [specialize (Z0 e); discriminate|lia]).
      repeat split; try lia. intros j J. exists b. unfold bg_at.
      destruct (Nat.ltb_spec j start); [lia|]. destruct (Nat.ltb_spec j x); [auto|lia].
  - cbn [bg_row]. destruct (ocolor_eqb color_eqb (c_bg c) run) eqn:E.
    + apply ocolor_eqb_iff in E.
      assert (Z1 : start = S x -> run = None) by lia.
      destruct (IH y (S x) start run ltac:(lia) Z1) as [A B].
      assert (Same : forall j, bg_at x start run (c :: l) j = bg_at (S x) start run l j).
      { intros j. unfold bg_at. destruct (Nat.ltb_spec j start); [reflexivity|].
        destruct (Nat.ltb_spec j x); destruct (Nat.ltb_spec j (S x)); try lia; try reflexivity.
        - replace (j - x) with 0 by lia. cbn. exact E.
        - replace (j - x) with (S (j - S x)) by lia. reflexivity. }
      split.
      * intros j b H. rewrite Same in H. auto.
      * intros r H. destruct (B r H) as (B1 & B2 & B3 & B4 & B5). cbn [length].
        repeat split; try lia; auto. intros j J. rewrite Same. auto.
    + assert (NE : c_bg c <> run) by (intros e; apply ocolor_eqb_iff in e; congruence).
      assert (Z1 : x = S x -> c_bg c = None) by lia.
      destruct (IH y (S x) x (c_bg c) ltac:(lia) Z1) as [A B].
      assert (Same : forall j, x <= j -> bg_at x start run (c :: l) j = bg_at (S x) x (c_bg c) l j).
      { intros j J. unfold bg_at. destruct (Nat.ltb_spec j start); [lia|].
        destruct (Nat.ltb_spec j x); [lia|]. destruct (Nat.ltb_spec j (S x)).
        - replace (j - x) with 0 by lia. reflexivity.
        - replace (j - x) with (S (j - S x)) by lia. reflexivity. }
      split.
      * intros j b H. destruct (Nat.ltb_spec j x).
        -- unfold bg_at in H. destruct (Nat.ltb_spec j start); [discriminate|]. destruct (Nat.ltb_spec j x); [|lia].
           subst run. eexists. split; [apply in_or_app; left; apply flush_bg_in; eauto|].
           cbn. split; [split; [reflexivity|]; cbn; lia|reflexivity].
        -- rewrite Same in H by lia. destruct (A j b H) as (r & R1 & R2 & R3). exists r.
           split; [apply in_or_app; now right|auto].
      * intros r H. apply in_app_or in H. destruct H as [H|H].
        -- apply flush_bg_in in H. destruct H as (b & -> & ->). cbn.
           assert (start < x) by (destruct (Nat.eq_dec start x) as [e|]; [specialize (Z0 e); discriminate|lia]).
           repeat split; try lia. intros j J. exists b. unfold bg_at.
           destruct (Nat.ltb_spec j start); [lia|]. destruct (Nat.ltb_spec j x); [auto|lia].
        -- destruct (B r H) as (B1 & B2 & B3 & B4 & B5). cbn [length]. repeat split; try lia; auto.
           intros j J. rewrite Same by lia. auto.
Qed.

Lemma row_length : forall w h y (cells : list cell), length cells = w * h -> y < h -> length (row w y cells) = w.
Proof. intros w h y cells L H. unfold row. rewrite firstn_length, skipn_length. nia. Qed.
Lemma nth_skipn : forall {A} n k (l : list A), nth_error (skipn n l) k = nth_error l (n + k).
Proof. induction n as [|n IH]; intros k [|x l]; cbn; auto; now rewrite ?IH; destruct k. Qed.
Lemma nth_firstn : forall {A} n k (l : list A), k < n -> nth_error (firstn n l) k = nth_error l k.
Proof. induction n as [|n IH]; intros k [|x l] H; cbn; auto; try lia; destruct k; cbn; auto; apply IH; lia. Qed.
Lemma row_nth : forall w y x (cells : list cell), x < w -> nth_error (row w y cells) x = cell_at w cells x y.
Proof. intros w y x cells H. unfold row, cell_at. now rewrite nth_firstn, nth_skipn by lia. Qed.

Lemma backgrounds_shown : forall w h cells x y c, length cells = w * h -> x < w -> y < h -> cell_at w cells x y = Some c ->
  (forall b, c_bg c = Some b -> exists r, In r (backgrounds w h cells) /\ rect_covers r x y) /\
  (forall r, In r (backgrounds w h cells) -> rect_covers r x y -> exists b, c_bg c = Some b /\ r_fill r = color_to_hex b).
Proof.
  intros w h cells x y c L X Y E. unfold backgrounds.
  assert (N : bg_at 0 0 None (row w y cells) x = c_bg c).
  { unfold bg_at. cbn. rewrite Nat.sub_0_r, row_nth, E by lia. reflexivity. }
  split.
  - intros b B. destruct (bg_row_spec (row w y cells) y 0 0 None (le_n 0) (fun _ => eq_refl)) as [A _].
    destruct (A x b ltac:(now rewrite N)) as (r & R1 & R2 & _). exists r. split; [|exact R2].
    apply in_flat_map. exists y. split; [apply in_seq; lia|exact R1].
  - intros r H [C1 C2]. apply in_flat_map in H. destruct H as (y' & _ & H).
    destruct (bg_row_spec (row w y' cells) y' 0 0 None (le_n 0) (fun _ => eq_refl)) as [_ B].
    destruct (B r H) as (_ & _ & _ & B4 & B5). assert (y' = y) by congruence. subst y'.
    destruct (B5 x C2) as (b & B6 & B7). rewrite C1 in B6. exists b. split; [etransitivity; [symmetry; exact N|exact B6]|exact B7].
Qed.

Lemma backgrounds_inside : forall w h cells r, length cells = w * h -> In r (backgrounds w h cells) ->
  r_y r < h /\ r_x r + r_w r <= w /\ 0 < r_w r.
Proof.
  intros w h cells r L H. apply in_flat_map in H. destruct H as (y & S & H). apply in_seq in S.
  destruct (bg_row_spec (row w y cells) y 0 0 None (le_n 0) (fun _ => eq_refl)) as [_ B].
  destruct (B r H) as (_ & B2 & B3 & B4 & _). rewrite (row_length w h) in B2 by lia. lia.
Qed.

(** ** Text *)

Definition styled (fg : option color) (at_ : attrs) (c : cell) : Prop := c_fg c = fg /\ c_attrs c = at_.

Lemma symbols_app : forall a b, symbols (a ++ b) = symbols a ++ symbols b.
Proof. intros. apply flat_map_app. Qed.
Lemma symbols_tail : forall l, Forall (fun t : cell => c_cont t = true) l -> symbols l = [].
Proof. induction l as [|c l IH]; intros H; inversion H; subst; auto. unfold symbols in *. cbn [flat_map]. match goal with |- (if ?b then _ else _) ++ _ = _ => replace b with true by (symmetry; assumption) end. auto. Qed.

Lemma changed_iff : forall fg at_ n,
  negb (ocolor_eqb color_eqb fg (n_fg n)) || negb (attrs_eqb at_ (n_attrs n)) = false <-> fg = n_fg n /\ at_ = n_attrs n.
Proof.
  intros. rewrite orb_false_iff, !negb_false_iff, ocolor_eqb_iff, attrs_eqb_iff. tauto.
Qed.

(** cells in the style of the run that show nothing of their own *)
Lemma text_row_tail : forall styles y tail x n r,
  Forall (fun t : cell => c_cont t = true /\ c_fg t = n_fg n /\ c_attrs t = n_attrs n) tail ->
  text_row styles y x n (tail ++ r) = text_row styles y (length tail + x) n r.
Proof.
  induction tail as [|t tail IH]; intros x n r H; auto. inversion H as [|? ? (C & F & T) H']; subst.
  cbn [app text_row]. unfold restyle.
  replace (negb (ocolor_eqb color_eqb (c_fg t) (n_fg n)) || negb (attrs_eqb (c_attrs t) (n_attrs n))) with false
    by (symmetry; apply changed_iff; auto).
  cbn [andb app]. rewrite C, IH by assumption. f_equal. cbn. lia.
Qed.

(** the run collected after the cells [p] *)
Definition collected (n : run) (p : list cell) : Prop :=
  n_start n <= length p /\ n_cells n = length p - n_start n /\
  n_text n = symbols (skipn (n_start n) p) /\ Forall (styled (n_fg n) (n_attrs n)) (skipn (n_start n) p) /\
  (n_text n = [] -> n_start n = length p).

Section TextRow.
Variable styles : list (color * text).
Variable y : nat.
Variable full : list cell.

Definition class_for (fg : option color) : text :=
  match fg with
  | Some f => match class_of styles f with Some s => s | None => str "terminal-default" end
  | None => str "terminal-default"
  end.

Definition good (e : elem) : Prop :=
  0 < e_len e /\ e_x e + e_len e <= length full /\ e_row e = y /\
  exists fg at_, Forall (styled fg at_) (firstn (e_len e) (skipn (e_x e) full)) /\ e_class e = class_for fg /\
    e_style e = style_attr at_ /\ e_text e = escape_xml (symbols (firstn (e_len e) (skipn (e_x e) full))).

Definition later (j : nat) : Prop := exists j' c, j <= j' /\ nth_error full j' = Some c /\ ~ plain c.

Lemma run_good : forall n p l, full = p ++ l -> collected n p -> n_text n <> [] -> good (text_elem styles y n).
Proof.
  intros n p l F (C1 & C2 & C3 & C4 & C5) NE. unfold good, text_elem. cbn.
  assert (L : n_start n < length p).
  { destruct (Nat.eq_dec (n_start n) (length p)) as [e|]; [|lia]. rewrite e, skipn_all in C3. contradiction. }
  assert (S : firstn (n_cells n) (skipn (n_start n) full) = skipn (n_start n) p).
  { rewrite F, skipn_app. replace (n_start n - length p) with 0 by lia. cbn [skipn].
    rewrite firstn_app, skipn_length. replace (n_cells n - (length p - n_start n)) with 0 by lia.
    cbn [firstn]. rewrite app_nil_r, C2, <- skipn_length. apply firstn_all. }
  rewrite S. split; [lia|]. split; [rewrite F, app_length; lia|]. split; [reflexivity|].
  exists (n_fg n), (n_attrs n). rewrite C3. auto.
Qed.

Lemma skip_in : forall n p l j c, full = p ++ l -> n <= j < length p -> nth_error full j = Some c -> In c (skipn n p).
Proof.
  intros n p l j c F J E. rewrite F, nth_error_app1 in E by lia.
  apply nth_error_In with (n := j - n). rewrite nth_skipn. now replace (n + (j - n)) with j by lia.
Qed.

Lemma text_row_spec : forall l, glyphs l -> forall p n, full = p ++ l -> collected n p ->
  let out := text_row styles y (length p) n l in
  Forall good out /\ Forall (fun e => n_start n <= e_x e) out /\
  ForallOrdPairs (fun e e' => e_x e + e_len e <= e_x e') out /\
  (forall j, n_start n <= j < length full -> (exists e, In e out /\ elem_covers e j y) <-> later j).
Proof.
  induction 1 as [|c tail r Cc Cs Cw Ct Gr IH]; intros p n F C.
  - cbn zeta. cbn [text_row]. rewrite app_nil_r in F. unfold restyle. cbn [fst].
    destruct (negb (ocolor_eqb color_eqb None (n_fg n)) || negb (attrs_eqb attrs_default (n_attrs n))) eqn:Ch.
    + destruct (n_text n) as [|ch tx] eqn:Tx; cbn [is_nil negb andb].
      * split; [constructor|]. split; [constructor|]. split; [constructor|]. intros j H. split.
        -- intros (e & [] & _).
        -- intros _. destruct C as (_ & _ & _ & _ & C5). specialize (C5 Tx). rewrite F in H. lia.
      * assert (G : good (text_elem styles y n)) by (apply run_good with (p := p) (l := []); [now rewrite app_nil_r|assumption|congruence]).
        split; [constructor; [exact G|constructor]|]. split; [constructor; [cbn; lia|constructor]|].
        split; [constructor; constructor|]. intros j H. split.
        -- intros _. exists j. destruct (nth_error full j) as [c|] eqn:E.
           2:{ apply nth_error_None in E. lia. }
           exists c. repeat split; auto. intros [P1 P2].
           assert (I : In c (skipn (n_start n) p)) by (eapply skip_in with (l := []); [now rewrite app_nil_r|rewrite <- F; eauto|eauto]).
           destruct C as (_ & _ & _ & C4 & _). rewrite Forall_forall in C4. destruct (C4 c I) as [D1 D2].
           assert (Ch' : negb (ocolor_eqb color_eqb None (n_fg n)) || negb (attrs_eqb attrs_default (n_attrs n)) = false)
             by (apply changed_iff; split; congruence).
           congruence.
        -- intros _. exists (text_elem styles y n). split; [now left|]. split; [reflexivity|]. cbn.
           destruct C as (C1 & C2 & _). rewrite F in H. lia.
    + apply changed_iff in Ch. destruct Ch as [Ch1 Ch2]. cbn [andb].
      split; [constructor|]. split; [constructor|]. split; [constructor|]. intros j H. split.
      * intros (e & [] & _).
      * intros (j' & c & J & E & NP). exfalso. apply NP.
        assert (J2 : j' < length p) by (rewrite <- F; apply nth_error_Some; congruence).
        assert (I : In c (skipn (n_start n) p)) by (eapply skip_in with (l := []) (j := j'); [now rewrite app_nil_r|lia|exact E]).
        destruct C as (_ & _ & _ & C4 & _). rewrite Forall_forall in C4. destruct (C4 c I) as [D1 D2]. split; congruence.
  - cbn zeta.
    (* the run after this glyph *)
    set (chg := negb (ocolor_eqb color_eqb (c_fg c) (n_fg n)) || negb (attrs_eqb (c_attrs c) (n_attrs n))).
    set (n' := Run (if chg then length p else n_start n) ((if chg then [] else n_text n) ++ c_sym c)
                 ((if chg then 0 else n_cells n) + c_width c) (c_fg c) (c_attrs c)).
    set (head := if chg && negb (is_nil (n_text n)) then [text_elem styles y n] else []).
    assert (Step : text_row styles y (length p) n (c :: tail ++ r) = head ++ text_row styles y (length (p ++ c :: tail)) n' r).
    { cbn [text_row]. unfold restyle. fold chg. fold head. f_equal. rewrite Cc.
      replace (Run _ _ _ _ _) with n'.
      - rewrite text_row_tail.
        + f_equal. rewrite app_length. cbn. lia.
        + cbn. exact Ct.
      - unfold n'. destruct chg eqn:Ch; cbn.
        + destruct (n_text n) as [|ch tx] eqn:Tx; cbn; rewrite ?Tx; cbn; auto.
          f_equal. destruct C as (C1 & C2 & C3 & C4 & C5). specialize (C5 Tx). lia.
        + apply changed_iff in Ch. destruct Ch as [-> ->]. reflexivity. }
    rewrite Step. clear Step.
    assert (Sy : symbols (c :: tail) = c_sym c).
    { change (c :: tail) with ([c] ++ tail). rewrite symbols_app, (symbols_tail tail), app_nil_r.
      - unfold symbols. cbn. now rewrite Cc, app_nil_r.
      - revert Ct. apply Forall_impl. tauto. }
    assert (Sty : Forall (styled (c_fg c) (c_attrs c)) (c :: tail)).
    { constructor; [split; reflexivity|]. revert Ct. apply Forall_impl. unfold styled. tauto. }
    assert (C' : collected n' (p ++ c :: tail)).
    { destruct C as (C1 & C2 & C3 & C4 & C5). unfold collected, n'. cbn [n_start n_cells n_text n_fg n_attrs].
      rewrite app_length. cbn [length]. destruct chg eqn:Ch.
      - rewrite skipn_app, skipn_all, Nat.sub_diag. cbn [skipn app]. rewrite Sy.
        repeat split; auto; try lia. intros e. contradiction.
      - apply changed_iff in Ch. destruct Ch as [Ch1 Ch2]. rewrite skipn_app.
        replace (n_start n - length p) with 0 by lia. cbn [skipn]. rewrite symbols_app, Sy, C3.
        repeat split; auto; try lia.
        + apply Forall_app. split; [|exact Sty]. rewrite Ch1, Ch2. exact C4.
        + intros e. apply app_eq_nil in e. destruct e. contradiction. }
    assert (F' : full = (p ++ c :: tail) ++ r) by (rewrite F, <- app_assoc; reflexivity).
    specialize (IH (p ++ c :: tail) n' F' C'). cbn zeta in IH. destruct IH as (I1 & I2 & I3 & I4).
    remember (text_row styles y (length (p ++ c :: tail)) n' r) as out eqn:Eo. clear Eo.
    assert (St : n_start n <= n_start n' <= length p).
    { destruct C as (C1 & _). unfold n'. cbn. destruct chg; lia. }
    assert (Hd : head = [] \/ (chg = true /\ n_text n <> [] /\ head = [text_elem styles y n])).
    { unfold head. destruct chg; [|now left]. destruct (n_text n) eqn:Tx; [now left|right].
      repeat split; try discriminate. }
    assert (Hc : chg = true -> n_text n <> [] -> n_start n' = length p) by (intros e _; unfold n'; cbn; now rewrite e).
    assert (Lc : length p < length full) by (rewrite F, app_length; cbn; lia).
    split; [|split; [|split]].
    + apply Forall_app. split; [|exact I1]. destruct Hd as [-> | (_ & NE & ->)]; constructor; [|constructor].
      eapply run_good with (p := p); eauto.
    + apply Forall_app. split; [|revert I2; apply Forall_impl; intros; lia].
      destruct Hd as [-> | (_ & NE & ->)]; constructor; [cbn; lia|constructor].
    + destruct Hd as [-> | (Ch & NE & ->)]; [exact I3|]. cbn [app]. constructor; [|exact I3].
      specialize (Hc Ch NE). destruct C as (C1 & C2 & _). revert I2. apply Forall_impl. cbn. intros e He. lia.
    + intros j J. destruct (le_lt_dec (n_start n') j) as [J2|J2].
      * rewrite <- (I4 j) by lia. split; intros (e & E1 & E2).
        -- apply in_app_or in E1. destruct E1 as [E1|E1]; [|eauto]. exfalso.
           destruct Hd as [-> | (Ch & NE & ->)]; [destruct E1|]. destruct E1 as [<-|[]].
           specialize (Hc Ch NE). destruct E2 as [_ E2]. cbn in E2. destruct C as (C1 & C2 & _). lia.
        -- exists e. split; [apply in_or_app; now right|exact E2].
      * (* a column of the run that has just been written *)
        assert (Ch : chg = true) by (unfold n' in J2; cbn in J2; destruct chg; [reflexivity|lia]).
        assert (Sn : n_start n' = length p) by (unfold n'; cbn; now rewrite Ch).
        assert (NE : n_text n <> []) by (intros e; destruct C as (_ & _ & _ & _ & C5); specialize (C5 e); lia).
        destruct Hd as [Hd | (_ & _ & Hd)].
        { exfalso. unfold head in Hd. rewrite Ch in Hd. destruct (n_text n); [congruence|discriminate]. }
        split; intros _.
        -- destruct (nth_error full j) as [d|] eqn:E; [|apply nth_error_None in E; lia].
           assert (I : In d (skipn (n_start n) p)) by (eapply skip_in with (j := j); eauto; lia).
           destruct C as (_ & _ & _ & C4 & _). rewrite Forall_forall in C4. destruct (C4 d I) as [D1 D2].
           assert (Dec : plain c \/ ~ plain c).
           { unfold plain. destruct (c_fg c); [right; intros [? _]; discriminate|].
             destruct (attrs_eqb (c_attrs c) attrs_default) eqn:Q; [left; apply attrs_eqb_iff in Q; auto|].
             right. intros [_ Q']. apply attrs_eqb_iff in Q'. congruence. }
           destruct Dec as [[P1 P2]|NP].
           ++ exists j, d. repeat split; auto. intros [Q1 Q2].
              assert (Ch0 : chg = false) by (unfold chg; apply changed_iff; split; congruence). congruence.
           ++ exists (length p), c. repeat split; auto; try lia.
              rewrite F, nth_error_app2, Nat.sub_diag by lia. reflexivity.
        -- exists (text_elem styles y n). rewrite Hd. split; [now left|]. split; [reflexivity|]. cbn.
           destruct C as (C1 & C2 & _). lia.
Qed.
End TextRow.

Lemma empty_collected : collected (Run 0 [] 0 None attrs_default) [].
Proof. unfold collected. cbn. repeat split; auto. Qed.
