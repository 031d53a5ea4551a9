(** Lemmas on the SVG export: colour classes, escaping and style attributes. *)
From Coq Require Import String ZArith List Bool Arith Lia.
From Coq Require DecimalString DecimalNat.
From Verif Require Import Text_Model Canvas_Model Keys_Proofs Svg_Model Svg_Spec Svg_Proofs.
Import ListNotations.
Open Scope nat_scope.
Notation length := List.length.
Open Scope list_scope.

(** ** Escaping *)
Lemma xml_det : forall t s1, xml_text t s1 -> forall s2, xml_text t s2 -> s1 = s2.
Proof.
  induction 1 as [|c t s N1 N2 H IH|name c t s N E H IH]; intros s2 H2.
  - inversion H2; auto.
  - inversion H2 as [|c' t' s' M1 M2 K|name' c' t' s' M E' K]; subst.
    + f_equal. auto.
    + exfalso. apply N2. reflexivity.
  - change (str "&" ++ name ++ str ";" ++ t) with ((38 :: name ++ 59 :: t)%Z) in *.
    remember (38 :: name ++ 59 :: t)%Z as u eqn:Eu.
    destruct H2 as [|c' t' s' M1 M2 K|name' c' t' s' M E' K].
    + discriminate.
    + exfalso. injection Eu. intros. congruence.
    + change (str "&" ++ name' ++ str ";" ++ t') with ((38 :: name' ++ 59 :: t')%Z) in Eu.
      injection Eu as Eu.
      assert (Same : name' = name /\ t' = t).
      { clear - Eu N M. revert name N Eu. induction name' as [|a name' IHn]; intros [|b name] N Eu; cbn in Eu.
        - injection Eu as ->. auto.
        - exfalso. injection Eu as <- _. apply N. now left.
        - exfalso. injection Eu as -> _. apply M. now left.
        - injection Eu as -> Eu. destruct (IHn (fun h => M (or_intror h)) name (fun h => N (or_intror h)) Eu) as [-> ->]. auto. }
      destruct Same as [-> ->]. f_equal; [congruence|auto].
Qed.

Lemma escape_app : forall a b, escape_xml (a ++ b) = escape_xml a ++ escape_xml b.
Proof. intros. apply flat_map_app. Qed.

Ltac byref name code := intros t s H; apply (xml_ref (str name) code t s);
  [cbn; intuition discriminate|reflexivity|exact H].
Lemma ref_lt : forall t s, xml_text t s -> xml_text (str "&lt;" ++ t) (60%Z :: s). Proof. byref "lt"%string 60%Z. Qed.
Lemma ref_gt : forall t s, xml_text t s -> xml_text (str "&gt;" ++ t) (62%Z :: s). Proof. byref "gt"%string 62%Z. Qed.
Lemma ref_amp : forall t s, xml_text t s -> xml_text (str "&amp;" ++ t) (38%Z :: s). Proof. byref "amp"%string 38%Z. Qed.
Lemma ref_quot : forall t s, xml_text t s -> xml_text (str "&quot;" ++ t) (34%Z :: s). Proof. byref "quot"%string 34%Z. Qed.
Lemma ref_apos : forall t s, xml_text t s -> xml_text (str "&apos;" ++ t) (39%Z :: s). Proof. byref "apos"%string 39%Z. Qed.
Lemma ref_nbsp : forall t s, xml_text t s -> xml_text (str "&#160;" ++ t) (160%Z :: s). Proof. byref "#160"%string 160%Z. Qed.

Lemma escape_read : forall s, xml_text (escape_xml s) (nbsp s).
Proof.
  induction s as [|c s IH]; [constructor|]. unfold escape_xml, nbsp in *. cbn [flat_map map]. unfold escape_char.
  destruct (Z.eqb_spec c 60) as [-> |N1]; [apply ref_lt; exact IH|].
  destruct (Z.eqb_spec c 62) as [-> |N2]; [apply ref_gt; exact IH|].
  destruct (Z.eqb_spec c 38) as [-> |N3]; [apply ref_amp; exact IH|].
  destruct (Z.eqb_spec c 34) as [-> |N4]; [apply ref_quot; exact IH|].
  destruct (Z.eqb_spec c 39) as [-> |N5]; [apply ref_apos; exact IH|].
  destruct (Z.eqb_spec c 32) as [-> |N6]; [apply ref_nbsp; exact IH|].
  apply xml_plain; assumption.
Qed.

(** ** Hexadecimal colours *)
Open Scope Z_scope.
Lemma hex1_read : forall d, 0 <= d <= 15 -> Svg_Spec.hex_digit (hex1 d) = Some d.
Proof.
  intros d D. unfold hex1, Svg_Spec.hex_digit. destruct (Z.ltb_spec d 10).
  - replace (48 <=? 48 + d) with true by (symmetry; apply Z.leb_le; lia).
    replace (48 + d <=? 57) with true by (symmetry; apply Z.leb_le; lia). cbn [andb]. f_equal. unfold char in *. lia.
  - replace (87 + d <=? 57) with false by (symmetry; apply Z.leb_gt; lia). rewrite andb_false_r.
    replace (97 <=? 87 + d) with true by (symmetry; apply Z.leb_le; lia).
    replace (87 + d <=? 102) with true by (symmetry; apply Z.leb_le; lia). cbn [andb]. f_equal. unfold char in *. lia.
Qed.
Lemma nibbles : forall v, is_u8 v -> 0 <= v / 16 <= 15 /\ 0 <= v mod 16 <= 15 /\ v = 16 * (v / 16) + v mod 16.
Proof.
  intros v [V1 V2]. split; [|split].
  - split; [apply Z.div_pos; lia|]. apply Z.lt_succ_r. apply Z.div_lt_upper_bound; lia.
  - pose proof (Z.mod_pos_bound v 16 ltac:(lia)). lia.
  - apply Z.div_mod. lia.
Qed.
Lemma hex_colour_read : forall r g b, is_u8 r -> is_u8 g -> is_u8 b -> hex_colour (color_to_hex (Rgb r g b)) r g b.
Proof.
  intros r g b R G B. destruct (nibbles r R) as (R1 & R2 & R3). destruct (nibbles g G) as (G1 & G2 & G3).
  destruct (nibbles b B) as (B1 & B2 & B3). unfold hex_colour.
  exists (hex1 (r / 16)), (hex1 (r mod 16)), (hex1 (g / 16)), (hex1 (g mod 16)), (hex1 (b / 16)), (hex1 (b mod 16)).
  exists (r / 16), (r mod 16), (g / 16), (g mod 16), (b / 16), (b mod 16).
  split; [reflexivity|]. rewrite !hex1_read by assumption. repeat split; assumption.
Qed.
Open Scope nat_scope.

(** ** Classes *)
Lemma str_inj : forall a b, str a = str b -> a = b.
Proof.
  induction a as [|x a IH]; intros [|y b] H; cbn in H; try discriminate; auto. injection H as H1 H2.
  f_equal; [|auto]. apply Nat2Z.inj in H1. rewrite <- (Ascii.ascii_nat_embedding x), <- (Ascii.ascii_nat_embedding y). congruence.
Qed.
Lemma class_name_inj : forall a b, class_name a = class_name b -> a = b.
Proof.
  intros a b H. unfold class_name in H. apply app_inv_head in H. apply str_inj in H.
  assert (E : DecimalString.NilEmpty.uint_of_string (DecimalString.NilEmpty.string_of_uint (Nat.to_uint a))
            = DecimalString.NilEmpty.uint_of_string (DecimalString.NilEmpty.string_of_uint (Nat.to_uint b))) by now rewrite H.
  rewrite !DecimalString.NilEmpty.usu in E. injection E as E.
  rewrite <- (DecimalNat.Unsigned.of_to a), <- (DecimalNat.Unsigned.of_to b). congruence.
Qed.
Lemma class_name_default : forall n, class_name n <> str "terminal-default".
Proof. intros n H. unfold class_name in H. cbn in H. discriminate. Qed.

(** names are given out in order *)
Definition numbered (s : collector) : Prop :=
  forall c n, In (c, n) (sc_styles s) -> exists i, i < sc_counter s /\ n = class_name i /\
    forall c', In (c', n) (sc_styles s) -> c' = c.

Lemma class_of_in : forall l c n, class_of l c = Some n -> In (c, n) l.
Proof.
  induction l as [|[k m] l IH]; cbn; intros c n H; [discriminate|]. destruct (color_eqb k c) eqn:E.
  - apply color_eqb_iff in E. injection H as ->. left. congruence.
  - right. auto.
Qed.

Lemma add_numbered : forall s c, numbered s -> numbered (add_fg s c) /\
  (exists n, class_of (sc_styles (add_fg s c)) c = Some n) /\
  (forall d n, class_of (sc_styles s) d = Some n -> class_of (sc_styles (add_fg s c)) d = Some n).
Proof.
  intros s c Nb. unfold add_fg. destruct (class_of (sc_styles s) c) as [n|] eqn:E.
  { repeat split; eauto. }
  cbn [sc_styles sc_counter].
  assert (App : forall l l' d, class_of (l ++ l') d = match class_of l d with Some n => Some n | None => class_of l' d end).
  { induction l as [|[k m] l IH]; intros l' d; cbn; auto. destruct (color_eqb k d); auto. }
  split; [|split].
  - intros d n I. cbn [sc_styles sc_counter] in *. apply in_app_or in I. destruct I as [I|[I|[]]].
    + destruct (Nb d n I) as (i & I1 & I2 & I3). exists i. repeat split; auto. intros d' J.
      apply in_app_or in J. destruct J as [J|[J|[]]]; [auto|]. injection J as <- <-.
      apply class_name_inj in I2. lia.
    + injection I as <- <-. exists (sc_counter s). repeat split; auto. intros d' J.
      apply in_app_or in J. destruct J as [J|[J|[]]]; [|congruence].
      destruct (Nb d' _ J) as (i & I1 & I2 & _). apply class_name_inj in I2. lia.
  - exists (class_name (sc_counter s)). rewrite App, E. cbn.
    now replace (color_eqb c c) with true by (symmetry; now apply color_eqb_iff).
  - intros d n H. now rewrite App, H.
Qed.

Lemma collect_spec : forall (cells : list cell) s, numbered s ->
  let s' := fold_left (fun s c => match c_fg c with Some f => add_fg s f | None => s end) cells s in
  numbered s' /\
  (forall d n, class_of (sc_styles s) d = Some n -> class_of (sc_styles s') d = Some n) /\
  (forall c f, In c cells -> c_fg c = Some f -> exists n, class_of (sc_styles s') f = Some n).
Proof.
  induction cells as [|c cells IH]; intros s Nb; cbn zeta; cbn [fold_left].
  - repeat split; auto. intros c f [].
  - set (s1 := match c_fg c with Some f => add_fg s f | None => s end).
    assert (N1 : numbered s1 /\ (forall d n, class_of (sc_styles s) d = Some n -> class_of (sc_styles s1) d = Some n) /\
      (forall f, c_fg c = Some f -> exists n, class_of (sc_styles s1) f = Some n)).
    { unfold s1. destruct (c_fg c) as [f|] eqn:E.
      - destruct (add_numbered s f Nb) as (A & B & C). repeat split; auto. intros g Eg. injection Eg as <-. exact B.
      - repeat split; auto. discriminate. }
    destruct N1 as (N1 & N2 & N3). destruct (IH s1 N1) as (I1 & I2 & I3). split; [exact I1|]. split; [auto|].
    intros d f [<-|I] F; [|eauto]. destruct (N3 f F) as (n & Hn). exists n. auto.
Qed.

Lemma find_last : forall {A} (f : A -> bool) l x, find f (rev l) = Some x -> In x l /\ f x = true.
Proof. intros A f l x H. apply find_some in H. rewrite <- in_rev in H. exact H. Qed.

Lemma rules_in : forall s n h, In (n, h) (rules s) <-> exists r g b, In (Rgb r g b, n) (sc_styles s) /\ h = color_to_hex (Rgb r g b).
Proof.
  intros s n h. unfold rules. rewrite in_flat_map. split.
  - intros ([[r g b|k] m] & I & J); cbn in J; [|destruct J]. destruct J as [J|[]]. injection J as <- <-. exists r, g, b. auto.
  - intros (r & g & b & I & ->). exists (Rgb r g b, n). split; [exact I|]. now left.
Qed.

Lemma fill_class : forall s c n, numbered s -> class_of (sc_styles s) c = Some n -> fill_of (rules s) n = color_to_hex c.
Proof.
  intros s c n Nb E. apply class_of_in in E. destruct (Nb c n E) as (i & _ & _ & U). unfold fill_of.
  destruct (find (fun p => text_eqb (fst p) n) (rev (rules s))) as [[m h]|] eqn:F.
  - apply find_last in F. destruct F as [I T]. cbn in T. apply text_eqb_iff in T. subst m.
    apply rules_in in I. destruct I as (r & g & b & I & ->). cbn [snd]. now rewrite (U _ I).
  - destruct c as [r g b|k]; [|reflexivity]. exfalso.
    assert (I : In (n, color_to_hex (Rgb r g b)) (rev (rules s))) by (rewrite <- in_rev; apply rules_in; exists r, g, b; auto).
    apply (find_none _ _ F) in I. cbn in I. assert (T : text_eqb n n = true) by now apply text_eqb_iff. congruence.
Qed.

Lemma fill_default : forall s, numbered s -> fill_of (rules s) (str "terminal-default") = str "#000000".
Proof.
  intros s Nb. unfold fill_of.
  destruct (find (fun p => text_eqb (fst p) (str "terminal-default")) (rev (rules s))) as [[m h]|] eqn:F; [|reflexivity].
  apply find_last in F. destruct F as [I T]. cbn [fst] in T. apply text_eqb_iff in T. subst m.
  apply rules_in in I. destruct I as (r & g & b & I & _). destruct (Nb _ _ I) as (i & _ & E & _).
  exfalso. exact (class_name_default i (eq_sym E)).
Qed.

(** ** The whole picture *)
Lemma collected_numbered : forall cells, numbered (collect_styles cells) /\
  (forall c f, In c cells -> c_fg c = Some f -> exists n, class_of (sc_styles (collect_styles cells)) f = Some n).
Proof.
  intros cells. destruct (collect_spec cells (Collector [] 1)) as (A & _ & B); [intros ? ? []|]. split; [exact A|exact B].
Qed.

Lemma row_spec : forall styles w h y cells, length cells = w * h -> y < h -> glyphs (row w y cells) ->
  let out := text_row styles y 0 (Run 0 [] 0 None attrs_default) (row w y cells) in
  Forall (good styles y (row w y cells)) out /\
  ForallOrdPairs (fun e e' => e_x e + e_len e <= e_x e') out /\
  (forall j, j < w -> (exists e, In e out /\ elem_covers e j y) <-> later (row w y cells) j).
Proof.
  intros styles w h y cells L Y G.
  destruct (text_row_spec styles y (row w y cells) (row w y cells) G [] (Run 0 [] 0 None attrs_default) eq_refl empty_collected)
    as (A & _ & B & C). split; [exact A|]. split; [exact B|]. intros j J. apply C. rewrite (row_length w h) by lia. cbn. lia.
Qed.

Lemma row_part : forall w y x n (cells : list cell), x + n <= w -> firstn n (skipn x (row w y cells)) = firstn n (skipn (y * w + x) cells).
Proof.
  intros w y x n cells H. unfold row. rewrite skipn_firstn_comm, firstn_firstn, Nat.min_l by lia. f_equal.
  rewrite Nat.add_comm. generalize (y * w). clear. intros m. revert x cells.
  induction m as [|m IH]; intros x cells; cbn [skipn]; [now rewrite Nat.add_0_r|].
  rewrite Nat.add_succ_r. destruct cells as [|c cells]; [now rewrite !skipn_nil|]. cbn [skipn]. apply IH.
Qed.

Lemma pairs_app : forall {A} (R : A -> A -> Prop) a b, ForallOrdPairs R a -> ForallOrdPairs R b ->
  (forall x y, In x a -> In y b -> R x y) -> ForallOrdPairs R (a ++ b).
Proof.
  induction a as [|x a IH]; intros b Ha Hb H; auto. inversion Ha as [|? ? F P]; subst. cbn. constructor.
  - apply Forall_app. split; [exact F|]. apply Forall_forall. intros z Z. apply H; [now left|exact Z].
  - apply IH; auto. intros u v U V. apply H; [now right|exact V].
Qed.
Lemma pairs_impl : forall {A} (R Q : A -> A -> Prop) l, (forall x y, In x l -> In y l -> R x y -> Q x y) ->
  ForallOrdPairs R l -> ForallOrdPairs Q l.
Proof.
  induction l as [|x l IH]; intros H P; [constructor|]. inversion P as [|? ? F P']; subst. constructor.
  - rewrite Forall_forall in *. intros z Z. apply H; [now left|now right|auto].
  - apply IH; auto. intros u v U V. apply H; now right.
Qed.

Lemma texts_disjoint : forall styles w h cells, length cells = w * h -> rows_ok w h cells ->
  ForallOrdPairs (fun e e' => forall x y, elem_covers e x y -> ~ elem_covers e' x y) (texts styles w h cells).
Proof.
  intros styles w h cells L G. unfold texts.
  assert (H : forall k, k <= h ->
    ForallOrdPairs (fun e e' => forall x y, elem_covers e x y -> ~ elem_covers e' x y)
      (flat_map (fun y => text_row styles y 0 (Run 0 [] 0 None attrs_default) (row w y cells)) (seq (h - k) k))).
  { induction k as [|k IH]; intros K; [constructor|]. cbn [seq flat_map].
    destruct (row_spec styles w h (h - S k) cells L ltac:(lia) (G (h - S k) ltac:(lia))) as (A & B & _).
    replace (S (h - S k)) with (h - k) by lia. apply pairs_app.
    - revert B. apply pairs_impl. intros e e' _ _ O x y [_ C1] [_ C2]. lia.
    - apply IH. lia.
    - intros e e' I I' x y [C1 _] [C2 _]. rewrite Forall_forall in A. destruct (A e I) as (_ & _ & R & _).
      apply in_flat_map in I'. destruct I' as (y' & Y & I'). apply in_seq in Y.
      destruct (row_spec styles w h y' cells L ltac:(lia) (G y' ltac:(lia))) as (A' & _ & _). rewrite Forall_forall in A'.
      destruct (A' e' I') as (_ & _ & R' & _). lia. }
  specialize (H h (le_n h)). now rewrite Nat.sub_diag in H.
Qed.

Lemma texts_cover : forall styles w h cells x y, length cells = w * h -> rows_ok w h cells -> x < w -> y < h ->
  (exists e, In e (texts styles w h cells) /\ elem_covers e x y) <->
  exists x' c, x <= x' < w /\ cell_at w cells x' y = Some c /\ ~ plain c.
Proof.
  intros styles w h cells x y L G X Y.
  destruct (row_spec styles w h y cells L Y (G y Y)) as (A & _ & C). specialize (C x X).
  transitivity (later (row w y cells) x).
  - rewrite <- C. unfold texts. split; intros (e & I & K).
    + apply in_flat_map in I. destruct I as (y' & S & I). apply in_seq in S.
      destruct (row_spec styles w h y' cells L ltac:(lia) (G y' ltac:(lia))) as (A' & _ & _). rewrite Forall_forall in A'.
      destruct (A' e I) as (_ & _ & R & _). destruct K as [K1 K2]. assert (y' = y) by lia. subst y'.
      exists e. split; [|split; assumption]. congruence.
    + exists e. split; [|exact K]. apply in_flat_map. exists y. split; [apply in_seq; lia|exact I].
  - unfold later. split; intros (x' & c & J & E & N).
    + assert (x' < w) by (rewrite <- (row_length w h y cells L Y); apply nth_error_Some; congruence).
      exists x', c. rewrite row_nth in E by lia. auto.
    + exists x', c. rewrite row_nth by lia. split; [lia|]. split; auto.
Qed.

Lemma style_attr_read : forall a,
  (In (str "font-weight: bold") (declarations (style_attr a)) <-> a_bold a = true) /\
  (In (str "font-style: italic") (declarations (style_attr a)) <-> a_italic a = true) /\
  ((exists v, In (str "text-decoration: " ++ v) (declarations (style_attr a)) /\ In (str "underline") (split_ws v)) <-> a_underline a = true) /\
  ((exists v, In (str "text-decoration: " ++ v) (declarations (style_attr a)) /\ In (str "line-through") (split_ws v)) <-> a_strike a = true).
Proof.
  intros [b d i u s r].
  assert (E : style_attr (Attrs b d i u s r) = style_attr (Attrs b false i u s false)) by reflexivity.
  cbn [a_bold a_italic a_underline a_strike]. rewrite E. clear E d r.
  assert (H : forall l, declarations (style_attr (Attrs b false i u s false)) = l -> l =
     (if b then [str "font-weight: bold"] else []) ++ (if i then [str "font-style: italic"] else [])
     ++ (match text_decoration (Attrs b false i u s false) with [] => [] | v => [str "text-decoration: " ++ v] end)).
  { intros l <-. destruct b, i, u, s; vm_compute; reflexivity. }
  rewrite (H _ eq_refl). clear H. cbn [text_decoration a_underline a_strike].
  assert (P : forall v1 v2, str "text-decoration: " ++ v1 = str "text-decoration: " ++ v2 -> v1 = v2) by (intros v1 v2; apply app_inv_head).
  assert (Q1 : forall v, str "font-weight: bold" <> str "text-decoration: " ++ v) by (intros v; vm_compute; discriminate).
  assert (Q2 : forall v, str "font-style: italic" <> str "text-decoration: " ++ v) by (intros v; vm_compute; discriminate).
  assert (Q3 : str "font-style: italic" <> str "font-weight: bold") by (vm_compute; discriminate).
  assert (D : forall v, In (str "text-decoration: " ++ v)
     ((if b then [str "font-weight: bold"] else []) ++ (if i then [str "font-style: italic"] else [])
     ++ (match text_decoration (Attrs b false i u s false) with [] => [] | v => [str "text-decoration: " ++ v] end)) <->
     (v <> [] /\ v = text_decoration (Attrs b false i u s false))).
  { intros v. rewrite !in_app_iff. split.
    - intros [I|[I|I]].
      + destruct b; [|destruct I]. destruct I as [I|[]]. destruct (Q1 v I).
      + destruct i; [|destruct I]. destruct I as [I|[]]. destruct (Q2 v I).
      + destruct (text_decoration (Attrs b false i u s false)) as [|z l] eqn:T; [destruct I|].
        destruct I as [I|[]]. apply P in I. subst v. split; [discriminate|reflexivity].
    - intros [N ->]. right. right. destruct (text_decoration (Attrs b false i u s false)); [congruence|]. now left. }
  split; [|split; [|split]].
  - rewrite !in_app_iff. split; [|intros ->; left; now left]. intros [I|[I|I]].
    + destruct b; [reflexivity|destruct I].
    + destruct i; [|destruct I]. destruct I as [I|[]]. destruct (Q3 I).
    + exfalso. destruct u, s; cbn in I; (destruct I as [I|I]; [|destruct I] || destruct I); exact (Q1 _ (eq_sym I)).
  - rewrite !in_app_iff. split; [|intros ->; right; left; now left]. intros [I|[I|I]].
    + destruct b; [|destruct I]. destruct I as [I|[]]. destruct (Q3 (eq_sym I)).
    + destruct i; [reflexivity|destruct I].
    + exfalso. destruct u, s; cbn in I; (destruct I as [I|I]; [|destruct I] || destruct I); exact (Q2 _ (eq_sym I)).
  - split.
    + intros (v & I & J). apply D in I. destruct I as [N ->]. destruct u; [reflexivity|]. exfalso.
      destruct s; [|apply N; reflexivity]. vm_compute in J. destruct J as [J|[]]. discriminate.
    + intros ->. eexists. split; [apply D; split; [|reflexivity]; destruct s; discriminate|].
      destruct s; vm_compute; auto.
  - split.
    + intros (v & I & J). apply D in I. destruct I as [N ->]. destruct s; [reflexivity|]. exfalso.
      destruct u; [|apply N; reflexivity]. vm_compute in J. destruct J as [J|[]]. discriminate.
    + intros ->. eexists. split; [apply D; split; [|reflexivity]; destruct u; discriminate|].
      destruct u; vm_compute; auto.
Qed.
