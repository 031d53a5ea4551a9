(** C113: a static text that is given the size it asks for is shown whole. *)
From Coq Require Import String ZArith List Arith Bool Lia.
From Verif Require Import Text_Model Markup_Model Markup_Spec Markup_Proofs Words_Proofs Strip_Model Strip_Spec Strip_Proofs Variables_Model
  Wrap_Model Wrap_Spec Wrap_Proofs Wrap2_Proofs Row_Model Row_Spec Row_Props Bars_Model Bars_Spec Static_Model Static_Spec Static_Proofs Static_Props
  Autosize_Model Autosize_Spec Autosize_Proofs.
Import ListNotations.
Open Scope nat_scope.
Open Scope list_scope.
Arguments blen : simpl never.
Arguments utf8_len : simpl never.

Lemma room_fits : forall (St Mt : Type) (k : @Static_Model.look text St Mt) n, n + k_line_pad k * 2 <= room_w k (n + k_line_pad k * 2 + chrome_width k).
Proof.
  intros St Mt k n. unfold room_w, chrome_width. assert (Q : forall x, b2n (shown_v x) <= b2n (Row_Model.shown x)) by (intros []; cbn; lia).
  pose proof (Q (e_left (k_border k))). pose proof (Q (e_right (k_border k))). lia.
Qed.

Section Props.
Variable gr : text -> list text.
Variable gw : text -> nat.
Context {St Mt : Type}.
Variable sapply : St -> St -> St.
Variable sdefault : St.
Variable sempty : St -> bool.
Variable mnew : Mt.
Variable mempty : Mt -> bool.
Variable mextend : Mt -> Mt -> Mt.
Variable restyle : St -> Mt -> St.
Variable lower : text -> text.
Variable known_color : text -> bool.
Variable conv : Markup_Model.style -> St.
Variable convm : list (text * text) -> Mt.
Hypothesis Hgr : forall t, concat (gr t) = t.
Hypothesis Hne : forall t g, In g (gr t) -> g <> [].
Hypothesis Hse : forall s, sempty s = true -> s = sdefault.
Hypothesis Hme : forall m, mempty m = true -> m = mnew.
Hypothesis Hrs : forall s, restyle s mnew = s.
Notation cont := (@content St Mt).
Notation klook := (@Static_Model.look text St Mt).
Notation cell := (@cell text St Mt).
Notation dw := (dw gr gw).
Notation wrap_overflow := (wrap_overflow gr gw sapply sdefault sempty mnew mempty mextend restyle).
Notation view := (view sdefault).
Notation lines_look := (lines_look sapply sdefault mnew mextend restyle).
Notation parse := (parse lower known_color).
Notation content_of := (content_of lower known_color conv convm).
Notation wrapped := (wrapped gr gw sapply sdefault sempty mnew mempty mextend restyle).
Notation lines_of c := (Autosize_Spec.text_lines (c_text c)).
Notation widest_line := (widest_line gr gw).
Notation desired_width := (desired_width gr gw).
Notation tidy := Autosize_Spec.tidy.

(** A text can be shown line by line: with wrapping its lines are tidy, without
    wrapping every character of it takes up room. *)
Definition showable (tw : text_wrap) (t : text) : Prop :=
  match tw with
  | Wrap => Forall tidy (Autosize_Spec.text_lines t)
  | NoWrap => forall c, In c t -> c <> 10%Z -> 0 < gw [c]
  end.

Lemma line_wid : forall src t l, letters gr gw src -> incl t src -> In l (Autosize_Spec.text_lines t) -> dw l = cwid gw l /\ incl l src.
Proof.
  intros src t l L I J. assert (K : incl l src) by (eapply incl_tran; [eapply split_char_incl; exact J|exact I]). split; auto.
  apply (letters_dw gr gw src); auto. intros x X. right. auto.
Qed.
Lemma whole : forall (c : cont) src width o tw, letters gr gw src -> inked gw src -> incl (c_text c) src -> Wrap_Spec.aligned (spans_of c) 0 (c_text c) ->
  showable tw (c_text c) -> Forall (fun l => dw l <= width) (lines_of c) -> 0 < width ->
  exists out, wrap_overflow c width o tw = Some out /\
    all_shown gw sapply sdefault mnew mextend restyle c 0 (lines_of c) out.
Proof.
  intros c src width o tw L K I AL SH F W. apply overflow_shown; auto. intros l p J A.
  destruct (line_wid src (c_text c) l L I J) as [D IL]. rewrite Forall_forall in F. pose proof (F l J) as LE. rewrite D in LE. destruct tw; cbn [showable] in SH.
  - apply (one_unwrapped gr gw sapply sdefault sempty mnew mempty mextend restyle Hgr Hne Hse Hme Hrs c src); auto.
    intros x X. apply SH. { eapply split_char_incl; [exact J|exact X]. } intros ->. apply (split_char_none 10%Z (c_text c) l J X).
  - apply (one_tidy gr gw sapply sdefault sempty mnew mempty mextend restyle Hgr Hne Hse Hme Hrs c src); auto.
    rewrite Forall_forall in SH. apply SH; auto.
Qed.

(** A content whose lines all fit in the width is put out line by line, nothing
    changed: whatever the overflow, the lines are those of the text, each character
    with its style, each as wide as its text, and each ends its paragraph. *)
Theorem C113_fits_unchanged : forall (c : cont) width o tw,
  letters gr gw (c_text c) -> inked gw (c_text c) -> Wrap_Spec.aligned (spans_of c) 0 (c_text c) -> showable tw (c_text c) ->
  Forall (fun l => dw l <= width) (lines_of c) -> 0 < width ->
  exists out, wrap_overflow c width o tw = Some out /\
    map (fun p => view (fst p)) out = lines_look c 0 (lines_of c) /\
    map (fun p => st_len (fst p)) out = map dw (lines_of c) /\ Forall (fun p => snd p = true) out.
Proof.
  intros c width o tw L K AL SH F W. destruct (whole c (c_text c) width o tw L K (incl_refl _) AL SH F W) as (out & O1 & O2).
  exists out. split; auto. destruct (all_shown_views gw sapply sdefault mnew mextend restyle c _ _ _ O2) as (A & B & C & _). split; auto. split; auto.
  rewrite B. apply map_ext_in. intros l J. symmetry. apply (line_wid (c_text c) (c_text c) l L (incl_refl _) J).
Qed.

(** Text without markup of which the lines are not tidy: indentation and what is
    behind the last word go, other blanks become one, and lines of blanks go; what is
    left is put out line by line. *)
Theorem C113_blanks_collapse : forall (c : cont) width o, c_spans c = None -> letters gr gw (c_text c) -> inked gw (c_text c) -> wide_blanks gw (c_text c) ->
  Forall (fun l => dw l <= width) (lines_of c) -> 0 < width ->
  let kept := map (fun l => spaced (split_ws l)) (filter not_blank (lines_of c)) in
  exists out, wrap_overflow c width o Wrap = Some out /\ length out <= length (lines_of c) /\ Forall (fun p => st_len (fst p) <= width) out /\
    (kept <> [] -> map (fun p => strip_text (fst p)) out = kept) /\ (kept = [] -> map (fun p => strip_text (fst p)) out = [[]]).
Proof.
  intros c width o E L K B F W kept. unfold Wrap_Model.wrap_overflow. destruct (Nat.eqb_spec width 0); [lia|].
  assert (Q : forall ls pos, (forall l, In l ls -> In l (lines_of c)) -> exists out, wrap_lines gr gw sapply sdefault sempty mnew mempty mextend restyle c width o Wrap ls pos = Some out /\
    length out <= length ls /\ Forall (fun p => st_len (fst p) <= width) out /\ map (fun p => strip_text (fst p)) out = map (fun l => spaced (split_ws l)) (filter not_blank ls)).
  { induction ls as [|l r IH]; intros pos I. { exists []. repeat split; auto. }
    destruct (IH (pos + blen l + 1) (fun x X => I x (or_intror X))) as (rest & R1 & R2 & R3 & R4).
    pose proof (I l (or_introl eq_refl)) as J. destruct (line_wid (c_text c) (c_text c) l L (incl_refl _) J) as [D IL].
    rewrite Forall_forall in F. pose proof (F l J) as LE. rewrite D in LE.
    assert (N10 : ~ In 10%Z l) by (apply (split_char_none 10%Z (c_text c) l J)).
    assert (LC : cwid gw (spaced (split_ws l)) <= width).
    { etransitivity; [apply collapse_narrower|exact LE]. { intros x X WS. apply B; auto. intros ->. auto. } { destruct L; auto. } }
    cbn [wrap_lines]. rewrite (one_collapsed gr gw sapply sdefault sempty mnew mempty mextend restyle Hgr Hne Hse Hme Hrs c (c_text c) o l pos width L K IL E LC W), R1.
    eexists. split; [reflexivity|]. cbn [filter]. destruct l as [|x l].
    - cbn [is_nil app length map not_blank fst]. rewrite R4. repeat split; [lia|constructor; auto; cbn; lia].
    - cbn [is_nil]. unfold not_blank at 1. destruct (split_ws (x :: l)) as [|w ws] eqn:SW; cbn [is_nil].
      + rewrite (proj1 (blank_words (x :: l)) SW). cbn [app length]. repeat split; auto.
      + assert (NB : existsb (fun c => negb (is_ws c)) (x :: l) = true).
        { destruct (existsb (fun c => negb (is_ws c)) (x :: l)) eqn:EX; auto. apply blank_words in EX. congruence. }
        rewrite NB. cbn [app length map fst]. rewrite R4, SW. split; [lia|]. split.
        * constructor; auto. cbn [fst]. rewrite plain_len.
          assert (FW : Forall (fun w => incl w (32%Z :: c_text c)) (split_ws (x :: l))) by (apply Forall_forall; intros v Hv y Y; right; apply IL; eapply word_in_line; eauto).
          rewrite SW in FW. rewrite (letters_dw gr gw (c_text c) _ L (spaced_incl _ _ FW)). exact LC.
        * f_equal. apply plain_text; auto. }
  destruct (Q (split_char 10%Z (c_text c)) 0) as (out & O1 & O2 & O3 & O4); [auto|]. rewrite O1. cbn [option_map].
  fold (lines_of c) in O4. fold kept in O4. destruct out as [|p out].
  - cbn [is_nil]. exists [(strip_new, true)]. split; auto. split; [|split; [constructor; [cbn; lia|constructor]|split]].
    + assert (NN : lines_of c <> []) by apply split_char_not_nil. destruct (lines_of c); [congruence|]. cbn. lia.
    + intros NK. exfalso. apply NK. rewrite <- O4. reflexivity.
    + reflexivity.
  - cbn [is_nil]. exists (p :: out). split; auto. split; auto. split; auto. split; auto. intros EK. rewrite EK in O4. discriminate.
Qed.

(** The text of markup without tags over the end of a line has as many lines as the
    markup, none wider. *)
Theorem C113_markup_text : forall src t m, marked src t -> parse src = Ok m -> letters gr gw src ->
  pm_text m = t /\ Forall2 (fun a b => dw b <= dw a) (Autosize_Spec.text_lines src) (Autosize_Spec.text_lines t).
Proof.
  intros src t m M P L. split. { eapply parse_marked; eauto. }
  pose proof (marked_lines gw src t M) as F. assert (G : forall l, In l (Autosize_Spec.text_lines src) -> dw l = cwid gw l /\ incl l src) by (intros l J; apply (line_wid src src l L (incl_refl _) J)).
  unfold Autosize_Spec.text_lines in *. revert G. induction F as [|a b x y (N & I) F IH]; intros G; constructor; auto.
  - destruct (G a (or_introl eq_refl)) as [-> GI]. rewrite (letters_dw gr gw src); auto. intros z Z. right. apply GI. apply I. auto.
  - apply IH. intros l J. apply G. right; auto.
Qed.

(** The size asked for: room for the widest line of the source and for all its
    lines, inside line-pad, padding and border. *)
Definition small (k : klook) (src : text) : Prop :=
  (Z.of_nat (widest_line src + k_line_pad k * 2) <= 65535 /\ Z.of_nat (length (Autosize_Spec.text_lines src)) <= 65535)%Z.
Theorem C113_size : forall (k : klook) src w h, small k src -> desired_width k src = Some (Z.of_nat w) -> desired_height k src = Some (Z.of_nat h) ->
  w = widest_line src + k_line_pad k * 2 + chrome_width k /\ h = length (Autosize_Spec.text_lines src) + chrome_height k.
Proof.
  intros k src w h [S1 S2] W H. unfold Autosize_Model.desired_width, Autosize_Model.desired_height, plus16, sat, as_u16 in *.
  assert (C : count_lines src = length (Autosize_Spec.text_lines src)) by (unfold count_lines; destruct src; reflexivity). rewrite C in H.
  rewrite Z.mod_small in W by lia. rewrite Z.mod_small in H by lia.
  match type of W with (if ?b then _ else _) = _ => destruct b; [|discriminate] end. match type of H with (if ?b then _ else _) = _ => destruct b; [|discriminate] end.
  injection W as W. injection H as H. split; lia.
Qed.

Lemma widest_bound : forall src l, letters gr gw src -> ~ In 13%Z src -> In l (Autosize_Spec.text_lines src) -> dw l <= widest_line src.
Proof.
  intros src l L N J. unfold Autosize_Model.widest_line, Variables_Model.lines. unfold Autosize_Spec.text_lines in J.
  assert (Z : dw [] = 0) by (rewrite (letters_dw gr gw src); auto; intros x []).
  assert (Q : forall ls, (forall x, In x ls -> ~ In 13%Z x) -> In l ls -> dw l <= fold_right (fun l n => Nat.max (dw l) n) 0 (cut_lines ls)).
  { induction ls as [|x r IH]; intros NC I; [destruct I|]. destruct r as [|y r].
    - destruct I as [->|[]]. cbn [cut_lines]. destruct l as [|a l]; cbn [is_nil fold_right]; lia.
    - change (cut_lines (x :: y :: r)) with (chop_cr x :: cut_lines (y :: r)). cbn [fold_right].
      assert (CH : chop_cr x = x).
      { unfold chop_cr. destruct (ends_with x [13%Z]) eqn:EW; auto. exfalso. apply (NC x (or_introl eq_refl)).
        apply Words_Proofs.ends_iff in EW. destruct EW as [q ->]. apply in_or_app. right. left. reflexivity. }
      rewrite CH. destruct I as [->|I]; [lia|]. specialize (IH (fun z H => NC z (or_intror H)) I). lia. }
  apply Q; auto. intros x X C. apply N. eapply split_char_incl; eauto.
Qed.
Lemma markup_aligned : forall src m st, parse src = Ok m -> Wrap_Spec.aligned (spans_of (from_parsed conv convm m st)) 0 (pm_text m).
Proof.
  intros src m st P s x I X _ _. destruct (parse_inv _ _ _ _ P) as [A _]. unfold spans_of, from_parsed in I. cbn [c_spans] in I.
  destruct (is_nil (pm_spans m)); [destruct I|]. apply in_map_iff in I. destruct I as (s0 & <- & I). destruct (A s0 I) as (_ & B1 & B2). cbn in X.
  destruct X as [-> | ->]; [destruct B1 as (a & b & B4 & B3)|destruct B2 as (a & b & B4 & B3)]; exists a, b; split; auto.
Qed.
(** What the source must be like: its characters stand by themselves, those of
    words take up room, there is no carriage return, and if it is parsed as markup
    then no tag goes over the end of a line. *)
Definition source_ok (markup : bool) (src : text) : Prop :=
  letters gr gw src /\ inked gw src /\ ~ In 13%Z src /\ (markup = true -> parse src = Err \/ exists t, marked src t).
Lemma automatic : forall markup src st c o tw width, content_of markup src st = Ok c -> source_ok markup src -> showable tw (c_text c) ->
  widest_line src <= width -> 0 < width ->
  length (lines_of c) = length (Autosize_Spec.text_lines src) /\ incl (c_text c) src /\
  Forall (fun l => dw l <= widest_line src) (lines_of c) /\
  exists out, wrap_overflow c width o tw = Some out /\ all_shown gw sapply sdefault mnew mextend restyle c 0 (lines_of c) out.
Proof.
  intros markup src st c o tw width E (L & K & NC & MK) SH LW W.
  assert (Q : length (lines_of c) = length (Autosize_Spec.text_lines src) /\ incl (c_text c) src /\ Wrap_Spec.aligned (spans_of c) 0 (c_text c) /\
              Forall (fun l => dw l <= widest_line src) (lines_of c)).
  { assert (P : c = Content src (Some st) None -> length (lines_of c) = length (Autosize_Spec.text_lines src) /\ incl (c_text c) src /\ Wrap_Spec.aligned (spans_of c) 0 (c_text c) /\
              Forall (fun l => dw l <= widest_line src) (lines_of c)).
    { intros ->. cbn [c_text]. split; auto. split; [apply incl_refl|]. split; [intros s x []|]. apply Forall_forall. intros l J. apply widest_bound; auto. }
    unfold Autosize_Model.content_of in E. destruct markup; [|apply P; congruence]. destruct (parse src) as [m| |] eqn:PS; [|apply P; congruence|discriminate].
    destruct (MK eq_refl) as [X|(t & M)]; [discriminate|]. injection E as <-. destruct (C113_markup_text src t m M PS L) as [ET F]. cbn [from_parsed c_text]. rewrite ET in *.
    split; [symmetry; eapply Forall2_length; eauto|]. split; [|split].
    - pose proof (marked_lines gw src t M) as G. intros x X.
      assert (Y : x = 10%Z \/ exists l, In l (split_char 10%Z t) /\ In x l).
      { rewrite <- (split_char_join 10%Z t) in X. clear - X. induction (split_char 10%Z t) as [|a r IH]; [destruct X|]. destruct r as [|b r]. { right. exists a. split; [left; auto|exact X]. }
        change (intercalate [10%Z] (a :: b :: r)) with (a ++ [10%Z] ++ intercalate [10%Z] (b :: r)) in X. apply in_app_or in X. destruct X as [X|X]. { right. exists a. split; [left; auto|auto]. }
        destruct X as [<-|X]; [left; auto|]. destruct (IH X) as [->|(l & J1 & J2)]; [left; auto|]. right. exists l. split; [right; auto|auto]. }
      destruct Y as [->|(l & J1 & J2)].
      + pose proof (Forall2_length _ _ _ _ _ G) as LN. rewrite !split_char_count in LN. apply (count_occ_In Z.eq_dec) in X. apply (count_occ_In Z.eq_dec). lia.
      + clear - G J1 J2. assert (exists a, In a (split_char 10%Z src) /\ incl l a) as (a & A1 & A2).
        { induction G as [|a b r r' (N & I) G IH]; [destruct J1|]. destruct J1 as [->|J1]. { exists a. split; [left; auto|auto]. } destruct (IH J1) as (z & Z1 & Z2). exists z. split; [right; auto|auto]. }
        eapply split_char_incl; [exact A1|]. apply A2. auto.
    - rewrite <- ET. eapply markup_aligned; eauto.
    - assert (G : forall l, In l (Autosize_Spec.text_lines src) -> dw l <= widest_line src) by (intros; apply widest_bound; auto).
      clear - F G. revert G. induction F as [|a b r r' N F IH]; intros G; constructor. { specialize (G a (or_introl eq_refl)). lia. } apply IH. intros l J. apply G. right; auto. }
  destruct Q as (Q1 & Q2 & Q3 & Q4). split; auto. split; auto. split; auto. apply whole with (src := src); auto.
  eapply Forall_impl; [|exact Q4]. cbn. intros. lia.
Qed.

(** A static text of the size it asks for: its lines are put out one by one with
    their styles, there is a row for each, and none is wider than the room. *)
Theorem C113_automatic_size : forall (k : klook) markup src st c o tw w h,
  content_of markup src st = Ok c -> source_ok markup src -> showable tw (c_text c) -> small k src ->
  desired_width k src = Some (Z.of_nat w) -> desired_height k src = Some (Z.of_nat h) ->
  let shown := wrapped c o tw (Nat.max (room_w k w - k_line_pad k * 2) 1) in
  map (fun l => view (w_strip l)) shown = lines_look c 0 (lines_of c) /\ Forall (fun l => w_end l = true) shown /\
  length shown <= room_h k h /\ Forall (fun l => st_len (w_strip l) <= room_w k w - k_line_pad k * 2) shown.
Proof.
  intros k markup src st c o tw w h E S SH SM W H shown. destruct (C113_size k src w h SM W H) as [-> ->].
  pose proof (room_fits _ _ k (widest_line src)) as AW. set (R := room_w k _) in *.
  destruct (automatic markup src st c o tw (Nat.max (R - k_line_pad k * 2) 1) E S SH) as (A1 & A2 & A3 & out & O1 & O2); [lia|lia|].
  destruct (all_shown_views gw sapply sdefault mnew mextend restyle c _ _ _ O2) as (B1 & B2 & B3 & B4).
  unfold shown, Autosize_Model.wrapped. rewrite O1. rewrite map_map. cbn [w_strip]. split; [exact B1|]. split; [|split].
  - rewrite Forall_map. exact B3.
  - rewrite map_length, <- (map_length (fun p : strip * bool => st_len (fst p))), B2, map_length, A1. unfold room_h, chrome_height.
    assert (Q : forall x, b2n (shown_h x) <= b2n (Row_Model.shown x)) by (intros []; cbn; lia).
    pose proof (Q (e_top (k_border k))). pose proof (Q (e_bottom (k_border k))). lia.
  - rewrite Forall_map. cbn [w_strip]. apply Forall_forall. intros p J. apply (in_map (fun p => st_len (fst p))) in J. rewrite B2 in J. apply in_map_iff in J. destruct J as (l & J1 & J2).
    rewrite <- J1. rewrite Forall_forall in A3. pose proof (A3 l J2) as LE. destruct S as (L & _). destruct (line_wid src (c_text c) l L A2 J2) as [<- _]. lia.
Qed.

Lemma within : forall (X : Type) (l p a m b q e : list X), exists a' b', l ++ p ++ (a ++ m ++ b) ++ q ++ e = a' ++ m ++ b'.
Proof. intros. exists (l ++ p ++ a), (b ++ q ++ e). rewrite <- !app_assoc. reflexivity. Qed.

(** The same on the screen, for text of one-cell characters: the rows drawn have the
    lines in full, one below the other. *)
Variables ellipsis dash : text.
Variable is_space : text -> bool.
Variable unstyled : St -> St.
Notation space := [32%Z].
Notation draw := (Static_Model.draw gw mnew space ellipsis dash is_space sdefault unstyled).
Definition glyphs_of (s : @strip text St Mt) : list text := map (fun x : cell => fst (fst x)) (cells s).
Lemma part_of : forall (A B C : list cell) g n, map (fun x : cell => fst (fst x)) B = g -> n = length g ->
  firstn n (skipn (length A) (map (fun x : cell => fst (fst x)) (A ++ B ++ C))) = g.
Proof.
  intros A B C g n E ->. rewrite !map_app, E, skipn_app, <- (map_length (fun x : cell => fst (fst x)) A). rewrite skipn_all, Nat.sub_diag. cbn [app skipn].
  rewrite firstn_app, firstn_all, Nat.sub_diag. cbn [firstn]. apply app_nil_r.
Qed.
Theorem C113_drawn : forall (k : klook) markup src st c o tw w h,
  glyphs gw space ellipsis dash -> spaces_are space is_space -> titles_in_borders k -> not_outlined k -> glyph_boxes gw k ->
  content_of markup src st = Ok c -> source_ok markup src -> showable tw (c_text c) -> one_cell_each gw (c_text c) -> small k src ->
  desired_width k src = Some (Z.of_nat w) -> desired_height k src = Some (Z.of_nat h) -> 0 < room_w k w ->
  exists top, forall i l, nth_error (lines_of c) i = Some l ->
    exists row x, nth_error (draw k (wrapped c o tw) w h) (top + i) = Some row /\
      firstn (length l) (skipn x (glyphs_of row)) = map (fun ch => [ch]) l.
Proof.
  intros k markup src st c o tw w h GL SP TB NO GB E S SH ONE SM W H RW.
  destruct (C113_automatic_size k markup src st c o tw w h E S SH SM W H) as (V & EN & LH & LW).
  set (shown := wrapped c o tw (Nat.max (room_w k w - k_line_pad k * 2) 1)) in *.
  assert (OKS : Forall2 (fun l s => strip_ok gw (w_strip s) /\ glyphs_of (w_strip s) = map (fun ch => [ch]) l) (lines_of c) shown).
  { destruct (C113_size k src w h SM W H) as [EW _]. pose proof (room_fits _ _ k (widest_line src)) as AW. rewrite <- EW in AW.
    destruct (automatic markup src st c o tw (Nat.max (room_w k w - k_line_pad k * 2) 1) E S SH) as (A1 & A2 & A3 & out & O1 & O2); [lia|lia|].
    destruct (all_shown_views gw sapply sdefault mnew mextend restyle c _ _ _ O2) as (_ & _ & _ & B4).
    unfold shown, Autosize_Model.wrapped. rewrite O1. clear - B4. induction B4; cbn [map]; constructor; auto. }
  assert (PL : plain_lines gw shown).
  { apply Forall_forall. intros s J. destruct (In_nth_error _ _ J) as (i & NI). clear - OKS NI ONE.
    assert (exists l, In l (lines_of c) /\ strip_ok gw (w_strip s) /\ glyphs_of (w_strip s) = map (fun ch => [ch]) l) as (l & J & O & G).
    { revert i NI. induction OKS as [|l x r r' O F IH]; intros [|i] NI; cbn in NI; try discriminate. { injection NI as ->. exists l. split; [left; auto|auto]. }
      destruct (IH i NI) as (q & Q1 & Q2). exists q. split; [right; auto|auto]. }
    split; auto. apply Forall_forall. intros y Y. apply (in_map (fun x : cell => fst (fst x))) in Y. change (In (fst (fst y)) (glyphs_of (w_strip s))) in Y. rewrite G in Y.
    apply in_map_iff in Y. destruct Y as (ch & <- & C). apply ONE. { eapply split_char_incl; [exact J|exact C]. } intros ->. apply (split_char_none _ _ _ J C). }
  assert (NZ : lines_of c <> []) by apply split_char_not_nil.
  assert (LS : length shown = length (lines_of c)) by (symmetry; eapply Forall2_length; exact OKS).
  assert (RH : 0 < room_h k h). { destruct (lines_of c); [congruence|]. cbn [length] in LS. lia. }
  destruct (C93_text_placed gw mnew space ellipsis dash is_space sdefault unstyled (fun _ => @None unit) k (wrapped c o tw) w h GL SP TB NO GB PL RW RH) as (_ & rows & R1 & R2 & R3).
  fold shown in R2. destruct R2 as (above & below & mid & D1 & D2 & D3).
  exists (first_row k + above). intros i l NI.
  assert (N2 : exists s, nth_error shown i = Some s /\ strip_ok gw (w_strip s) /\ glyphs_of (w_strip s) = map (fun ch => [ch]) l).
  { clear - OKS NI. revert i NI. induction OKS as [|a x r r' O F IH]; intros [|i] NI; cbn in NI; try discriminate. { injection NI as ->. exists x. auto. } destruct (IH i NI) as (q & Q). exists q. exact Q. }
  destruct N2 as (s & NS & OS & GS).
  set (blank := (space, Some (k_style k), mnew) : cell) in *. set (pad := (space, Some (unstyled (k_style k)), mnew) : cell) in *.
  set (tl := Static_Spec.text_lines blank k shown) in *.
  set (body := repeat blank (k_line_pad k) ++ cells (w_strip s) ++ repeat blank (k_line_pad k)).
  assert (NT : nth_error tl i = Some (body, true)).
  { unfold tl, Static_Spec.text_lines. rewrite nth_error_map, NS. cbn [option_map]. unfold body. do 2 f_equal. rewrite Forall_forall in EN. apply EN. eapply nth_error_In; eauto. }
  assert (LB : length body <= room_w k w).
  { unfold body. rewrite !app_length, !repeat_length. rewrite Forall_forall in LW. pose proof (LW s (nth_error_In _ _ NS)) as LE.
    unfold plain_lines in PL. rewrite Forall_forall in PL. pose proof (PL s (nth_error_In _ _ NS)) as [[_ P1] P2]. rewrite (narrow_width gw) in P1 by auto. destruct (C113_size k src w h SM W H) as [EW _].
    pose proof (room_fits _ _ k (widest_line src)) as AW. rewrite <- EW in AW.
    lia. }
  assert (NF : nth_error (firstn (room_h k h) tl) i = Some (body, true)).
  { assert (LT : length tl <= room_h k h) by (unfold tl, Static_Spec.text_lines; rewrite map_length; exact LH). rewrite firstn_all2 by exact LT. exact NT. }
  assert (NR : exists r, nth_error mid i = Some r /\ in_block is_space k (room_w k w) (Nat.min (room_w k w) (widest tl)) pad true body r).
  { change (Forall2 (fun l r => length r = room_w k w /\ in_block is_space k (room_w k w) (Nat.min (room_w k w) (widest tl)) pad (snd l) (fst l) r) (firstn (room_h k h) tl) mid) in D3.
    revert D3 NF. generalize (firstn (room_h k h) tl) as fl. generalize (Nat.min (room_w k w) (widest tl)) as blk. generalize body as bd. clear. intros bd blk fl D3 NF. revert i NF.
    induction D3 as [|a x q q' [Q1 Q2] F IH]; intros [|i] NF; cbn [nth_error] in NF; try discriminate.
    { assert (EA : a = (bd, true)) by congruence. rewrite EA in Q2. exists x. auto. } apply IH; auto. }
  destruct NR as (r & NR & IB).
  assert (NROW : nth_error rows (above + i) = Some r).
  { rewrite D2. rewrite nth_error_app2 by (rewrite repeat_length; lia). rewrite repeat_length. replace (above + i - above) with i by lia.
    rewrite nth_error_app1; auto. apply nth_error_Some. congruence. }
  destruct (R3 (above + i) r NROW) as (row & RR & RC). rewrite Nat.add_assoc in RR.
  assert (SI : forall ww q, set_in is_space (k_t k) true ww pad (firstn (room_w k w) body) q -> exists a b, q = repeat pad a ++ body ++ repeat pad b).
  { intros ww q Q. rewrite firstn_all2 in Q by exact LB. unfold set_in in Q. destruct (k_t k); destruct Q as (a & b & _ & Q); exists a, b; exact Q. }
  assert (PR : exists A B, r = A ++ cells (w_strip s) ++ B).
  { assert (PB : forall a b, exists A B, repeat pad a ++ body ++ repeat pad b = A ++ cells (w_strip s) ++ B).
    { intros a b. exists (repeat pad a ++ repeat blank (k_line_pad k)), (repeat blank (k_line_pad k) ++ repeat pad b). unfold body. rewrite <- !app_assoc. reflexivity. }
    unfold in_block in IB. destruct (k_h k), (k_v k);
      try (destruct IB as (a & b & m & _ & -> & IB); destruct (SI _ _ IB) as (a' & b' & ->); destruct (PB a' b') as (A & B & ->);
           exists (repeat pad a ++ A), (B ++ repeat pad b); rewrite <- !app_assoc; reflexivity);
      destruct (SI _ _ IB) as (a' & b' & ->); apply PB. }
  destruct PR as (A & B & ->). assert (PF : exists A' B', cells row = A' ++ cells (w_strip s) ++ B').
  { rewrite RC. unfold framed. destruct (k_box k) as [[b1 [[lf b2] rt]] b3]. apply within. }
  destruct PF as (A' & B' & PF). exists row, (length A'). split; [exact RR|].
  unfold glyphs_of. rewrite PF. apply part_of; [exact GS|]. rewrite map_length. reflexivity.
Qed.
End Props.
Print Assumptions C113_fits_unchanged.
Print Assumptions C113_blanks_collapse.
Print Assumptions C113_markup_text.
Print Assumptions C113_size.
Print Assumptions C113_automatic_size.
Print Assumptions C113_drawn.

(** ** Cases *)
(** Every character is a cluster, one cell wide but for two (20013 takes two cells,
    8203 none); styles are numbers, metadata is none. *)
Definition zgr (t : text) : list text := map (fun c => [c]) t.
Definition zgw (g : text) : nat := match g with [8203%Z] => 0 | [20013%Z] => 2 | _ => 1 end.
Definition zsap (a b : nat) : nat := if b =? 0 then a else b.
Definition zknown (t : text) : bool := text_eqb t (str "red").
Definition zrow : @box_row text nat nat := (Segment [[43%Z]] 1 (Some 1) 0, Segment [[45%Z]] 1 (Some 1) 0, Segment [[43%Z]] 1 (Some 1) 0).
Definition zlook (b : edges kind) : @look text nat nat :=
  Look b (Edges KNone KNone KNone KNone) (Edges 0 1 0 1) (zrow, zrow, zrow) (zrow, zrow, zrow) HLeft HLeft (Some 1) HLeft VTop TLeft 0 1 None None.
Notation zcontent := (content_of (fun t => t) zknown (fun _ => 2) (fun _ => 0)).
Notation zwrapped := (wrapped zgr zgw zsap 0 (fun s => s =? 0) 0 (fun s => s =? 0) Nat.add (fun s _ => s)).
Notation zdraw := (draw zgw 0 [32%Z] [8230%Z] [8212%Z] (fun g => text_eqb g [32%Z]) 0 (fun s => s)).
Notation znarrow := (desired_width zgr zgw).
Definition on_screen (rows : list (@strip text nat nat)) : list text := map (fun r => concat (glyphs_of r)) rows.
Lemma zletters : forall src, letters zgr zgw src.
Proof. intros src. split; reflexivity. Qed.

(** Two lines with a tag, in a border and with padding. *)
Definition zsrc : text := str "[red]ab[/] c" ++ 10%Z :: str "def \[g".
Definition zbordered := zlook (Edges KSolid KSolid KSolid KSolid).
Example C113_sample : exists c, zcontent true zsrc 1 = Ok c /\ c_text c = str "ab c" ++ 10%Z :: str "def [g" /\
  source_ok zgr zgw (fun t => t) zknown true zsrc /\ showable zgw Wrap (c_text c) /\ one_cell_each zgw (c_text c) /\ small zgr zgw zbordered zsrc /\
  znarrow zbordered zsrc = Some 16%Z /\ desired_height zbordered zsrc = Some 4%Z /\ room_w zbordered 16 = 12 /\
  on_screen (zdraw zbordered (zwrapped c Clip Wrap) 16 4) =
    [str "+--------------+"; str "+ ab c         +"; str "+ def [g       +"; str "+--------------+"].
Proof.
  eexists. split; [vm_compute; reflexivity|]. split; [reflexivity|]. split; [|split; [|split; [|split]]].
  - split; [apply zletters|]. split; [|split].
    + intros c J _. apply Nat.ltb_lt. revert c J. apply (proj1 (forallb_forall (fun c => 0 <? zgw [c]) zsrc)). reflexivity.
    + intros J. apply (proj1 (forallb_forall (fun c => negb (c =? 13)%Z) zsrc)) in J; [discriminate|reflexivity].
    + intros _. right. eexists. change zsrc with (91%Z :: str "red" ++ 93%Z :: (str "ab" ++ 91%Z :: str "/" ++ 93%Z :: (str " c" ++ 10%Z :: str "def \[g"))).
      apply marked_tag. { repeat (apply body_char; [repeat split; discriminate|discriminate|]). apply body_nil. }
      do 2 (apply marked_char; [discriminate|discriminate|]). apply marked_tag. { apply body_char; [repeat split; discriminate|discriminate|]. apply body_nil. }
      do 7 (apply marked_char; [discriminate|discriminate|]). apply marked_esc; [auto|]. apply marked_char; [discriminate|discriminate|]. apply marked_end.
  - repeat constructor.
  - cbn [c_text]. intros c J _. apply Nat.eqb_eq. revert c J. refine (proj1 (forallb_forall (fun c => zgw [c] =? 1) _) _). reflexivity.
  - split; vm_compute; discriminate.
  - repeat split; vm_compute; reflexivity.
Qed.

(** The size is that of the source: tags count, so markup asks for more than its
    text is wide. *)
Theorem C113_tags_counted_refuted : let src := str "[red]hi[/]" in
  znarrow (zlook (Edges KNone KNone KNone KNone)) src = Some 12%Z /\
  exists c, zcontent true src 1 = Ok c /\ c_text c = str "hi" /\
    on_screen (zdraw (zlook (Edges KNone KNone KNone KNone)) (zwrapped c Clip Wrap) 12 1) = [str " hi         "].
Proof. cbv zeta. split; [reflexivity|]. eexists. split; [vm_compute; reflexivity|]. split; vm_compute; reflexivity. Qed.

(** A tag over the end of a line: the text is one line, the size asked for has two
    lines and is too narrow, so the end of the text is cut off (without wrapping). *)
Theorem C113_tag_over_lines_refuted : let src := str "abcdefgh[red" ++ 10%Z :: str "bold]ijklmnopq" in let k := zlook (Edges KNone KNone KNone KNone) in
  znarrow k src = Some 16%Z /\ desired_height k src = Some 2%Z /\
  exists c, zcontent true src 1 = Ok c /\ c_text c = str "abcdefghijklmnopq" /\
    on_screen (zdraw k (zwrapped c Clip NoWrap) 16 2) = [str " abcdefghijklmn "; str "                "].
Proof. cbv zeta. split; [reflexivity|]. split; [reflexivity|]. eexists. split; [vm_compute; reflexivity|]. split; [reflexivity|]. split; vm_compute; reflexivity. Qed.

(** The width is cut down to sixteen bits: a line of 65536 characters asks for no
    room at all. *)
Theorem C113_u16_refuted : exists src, Z.of_nat (length src) = 65536%Z /\ (forall c, In c src -> c = 97%Z) /\
  znarrow (zlook (Edges KNone KNone KNone KNone)) src = Some 2%Z.
Proof.
  exists (repeat 97%Z (Z.to_nat 65536)). split; [rewrite repeat_length; apply Z2Nat.id; lia|]. split; [intros c J; apply repeat_spec in J; exact J|].
  assert (Q : forall n, 0 < n -> widest_line zgr zgw (repeat 97%Z n) = n).
  { intros n N. unfold widest_line, Variables_Model.lines.
    assert (SC : split_char 10%Z (repeat 97%Z n) = [repeat 97%Z n]). { clear. induction n as [|n IH]; [reflexivity|]. cbn [repeat split_char]. rewrite IH. reflexivity. }
    rewrite SC. destruct n as [|n]; [lia|]. cbn [repeat cut_lines is_nil fold_right]. rewrite Nat.max_0_r. change (97%Z :: repeat 97%Z n) with (repeat 97%Z (S n)).
    clear. unfold dw, zgr, text_width. induction (S n) as [|m IH]; [reflexivity|]. cbn [repeat map fold_right]. rewrite IH. reflexivity. }
  unfold desired_width. rewrite Q by (apply Nat2Z.inj_lt; rewrite Z2Nat.id; lia). rewrite Z2Nat.id by lia. reflexivity.
Qed.

(** A blank of no width (a tab, say, where tabs are zero wide) becomes one of a cell:
    the text then does not fit in the width of its line. *)
Theorem C113_tab_refuted : let gw g := match g with [9%Z] => 0 | _ => 1 end in let src := [97; 9; 98]%Z in
  desired_width zgr gw (zlook (Edges KNone KNone KNone KNone)) src = Some 4%Z /\ desired_height (zlook (Edges KNone KNone KNone KNone)) src = Some 1%Z /\
  exists c, zcontent false src 1 = Ok c /\
    on_screen (draw gw 0 [32%Z] [8230%Z] [8212%Z] (fun g => text_eqb g [32%Z]) 0 (fun s => s) (zlook (Edges KNone KNone KNone KNone))
      (wrapped zgr gw zsap 0 (fun s => s =? 0) 0 (fun s => s =? 0) Nat.add (fun s _ => s) c Clip Wrap) 4 1) = [str " a  "].
Proof. cbv zeta. split; [reflexivity|]. split; [reflexivity|]. eexists. split; [reflexivity|]. vm_compute. reflexivity. Qed.
Print Assumptions C113_tags_counted_refuted.
Print Assumptions C113_tag_over_lines_refuted.
Print Assumptions C113_u16_refuted.
Print Assumptions C113_tab_refuted.
