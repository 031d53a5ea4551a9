(** Proofs about the words of style tags. *)
From Coq Require Import String ZArith List Bool Lia.
From Verif Require Import Text_Model Markup_Model Colour_Spec Keys_Spec Wrap_Proofs Keys_Proofs Words_Spec.
Import ListNotations.
Open Scope Z_scope.
Notation length := List.length.
Open Scope list_scope.

(** *** White space *)
Lemma split_ws_blank : forall g t, blank g -> split_ws (g ++ t) = split_ws t.
Proof. intros g t B. induction B as [|c g C B IH]; [reflexivity|]. cbn [app]. rewrite split_ws_skip by exact C. exact IH. Qed.
Lemma split_ws_all_blank : forall g, blank g -> split_ws g = [].
Proof. intros g B. rewrite <- (app_nil_r g), split_ws_blank by exact B. reflexivity. Qed.
Lemma take_solid : forall w t, Forall (fun c => is_ws c = false) w -> (match t with [] => True | c :: _ => is_ws c = true end) -> take_word (w ++ t) = w /\ drop_word (w ++ t) = t.
Proof.
  intros w t W T. induction W as [|c w C W IH]; cbn [app take_word drop_word].
  - destruct t as [|c t]; [split; reflexivity|]. cbn. rewrite T. split; reflexivity.
  - rewrite C. destruct IH as [-> ->]. split; reflexivity.
Qed.
Lemma split_ws_solid : forall w t, solid w -> (match t with [] => True | c :: _ => is_ws c = true end) -> split_ws (w ++ t) = w :: split_ws t.
Proof.
  intros [|c w] t [N W] T; [congruence|]. inversion W; subst. cbn [app]. rewrite split_ws_word by auto. destruct (take_solid w t) as [-> ->]; auto.
Qed.
Lemma blank_head : forall h t, blank h -> h <> [] -> match h ++ t with [] => True | c :: _ => is_ws c = true end.
Proof. intros [|c h] t B N; [congruence|]. inversion B; subst. auto. Qed.
Lemma spaced_split : forall ws t, spaced ws t -> split_ws t = ws.
Proof.
  intros ws t H. induction H as [g G|g w h G W H|g w h ws t G W H N S IH].
  - apply split_ws_all_blank. exact G.
  - rewrite split_ws_blank by exact G. rewrite split_ws_solid; auto; [rewrite split_ws_all_blank by exact H; reflexivity|]. destruct h as [|c h]; auto. inversion H; subst; auto.
  - rewrite split_ws_blank by exact G. rewrite split_ws_solid; auto; [rewrite split_ws_blank by exact H; rewrite IH; reflexivity|]. apply blank_head; auto.
Qed.
Lemma split_spaced : forall t, spaced (split_ws t) t.
Proof.
  intros t. remember (length t) as n. assert (L : (length t <= n)%nat) by lia. clear Heqn. revert t L. induction n as [|n IH]; intros t L.
  { destruct t; [|cbn in L; lia]. apply spaced_nil. constructor. }
  destruct (blank_split t) as (g & r & -> & G & R & ->). destruct R as [->|(c & r' & -> & C)].
  { rewrite app_nil_r. apply spaced_nil. exact G. }
  rewrite split_ws_word by exact C. pose proof (take_drop r') as TD. pose proof (take_no_ws r') as TN. set (w := c :: take_word r'). set (d := drop_word r') in *.
  assert (E : c :: r' = w ++ d) by (unfold w; cbn [app]; rewrite TD; reflexivity). rewrite E. assert (W : solid w) by (split; [discriminate|constructor; auto]).
  destruct (blank_split d) as (h & s & D & H & S & ED). destruct S as [->|(c' & s' & -> & C')].
  - rewrite app_nil_r in D. rewrite D. rewrite split_ws_all_blank by exact H. apply spaced_last; auto.
  - rewrite ED. rewrite D at 1. apply spaced_cons; auto.
    + intros ->. cbn [app] in D. pose proof (drop_head r' c' s' D). congruence.
    + apply IH. rewrite app_length in L. rewrite E, D, !app_length in L. unfold w in L. cbn [length] in *. lia.
Qed.
Lemma trim_split : forall t, exists a b, blank a /\ blank b /\ t = a ++ trim t ++ b.
Proof.
  intros t. destruct (trim_start_split t) as (a & A & E). destruct (trim_end_split (trim_start t)) as (b & B & F). exists a, b. split; auto. split; auto. unfold trim. rewrite <- F. exact E.
Qed.
Lemma split_ws_blank_r : forall t b, blank b -> split_ws (t ++ b) = split_ws t.
Proof.
  intros t b B. apply spaced_split. pose proof (split_spaced t) as S. induction S as [g G|g w h G W H|g w h ws t G W H N S IH].
  - apply spaced_nil. apply Forall_app. auto.
  - rewrite <- !app_assoc. apply spaced_last; auto. apply Forall_app. auto.
  - rewrite <- !app_assoc. apply spaced_cons; auto.
Qed.
Lemma split_ws_trim : forall t, split_ws (trim t) = split_ws t.
Proof. intros t. destruct (trim_split t) as (a & b & A & B & E). rewrite E at 2. rewrite split_ws_blank, split_ws_blank_r by auto. reflexivity. Qed.
Lemma trim_nil_iff : forall t, trim t = [] <-> split_ws t = [].
Proof.
  intros t. rewrite <- split_ws_trim. split; [intros ->; reflexivity|]. intros H. pose proof (split_spaced (trim t)) as S. rewrite H in S. inversion S as [g G| |]; subst g.
  assert (X : trim (trim t) = []). { rewrite <- (app_nil_r (trim t)) at 1. rewrite trim_app_l by exact G. reflexivity. }
  destruct (trim_split t) as (a & b & A & B & E). rewrite E. rewrite trim_app_l, trim_app_r by auto. exact X.
Qed.
Definition tight (core : text) : Prop := (forall x r, core = x :: r -> is_ws x = false) /\ (forall x r, core = r ++ [x] -> is_ws x = false) /\ core <> [].
Lemma tight_trim : forall core, tight core -> trim core = core.
Proof.
  intros core (A & B & N). unfold trim. assert (S1 : trim_start core = core). { destruct core as [|x r]; auto. cbn. rewrite (A x r eq_refl). reflexivity. }
  rewrite S1. unfold trim_end. destruct (exists_last N) as (r & x & E). rewrite E, rev_app_distr. cbn [rev app trim_start]. rewrite (B x r E). cbn. rewrite rev_involutive. reflexivity.
Qed.
Lemma trim_tight : forall t, trim t <> [] -> tight (trim t).
Proof.
  intros t N.
  assert (A : forall t x r, trim_start t = x :: r -> is_ws x = false). { clear. induction t as [|c t IH]; intros x r E; cbn in E; [discriminate|]. destruct (is_ws c) eqn:W; eauto. injection E as <- _. exact W. }
  split; [|split; [|exact N]].
  - intros x r E. unfold trim in E. destruct (trim_end_split (trim_start t)) as (b & B & F). rewrite E in F. cbn [app] in F. apply (A t x (r ++ b)). exact F.
  - intros x r E. unfold trim, trim_end in E. apply (f_equal (@rev char)) in E. rewrite rev_involutive, rev_app_distr in E. cbn in E. eapply A; eauto.
Qed.

(** *** Colours *)
Lemma hex_ok : forall c d, hex_digit c = Ok d <-> hex_char d c.
Proof.
  intros c d. unfold hex_digit, hex_char. split.
  - destruct ((48 <=? c) && (c <=? 57)) eqn:A; [apply andb_true_iff in A; rewrite !Z.leb_le in A; intros E; injection E as <-; lia|].
    destruct ((97 <=? c) && (c <=? 102)) eqn:B; [apply andb_true_iff in B; rewrite !Z.leb_le in B; intros E; injection E as <-; lia|].
    destruct ((65 <=? c) && (c <=? 70)) eqn:C; [apply andb_true_iff in C; rewrite !Z.leb_le in C; intros E; injection E as <-; lia|discriminate].
  - intros [[D ->]|[D [-> | ->]]].
    + replace ((48 <=? 48 + d) && (48 + d <=? 57)) with true by (symmetry; apply andb_true_iff; rewrite !Z.leb_le; lia). f_equal. lia.
    + replace ((48 <=? 97 + (d - 10)) && (97 + (d - 10) <=? 57)) with false by (symmetry; apply andb_false_iff; rewrite !Z.leb_gt; lia).
      replace ((97 <=? 97 + (d - 10)) && (97 + (d - 10) <=? 102)) with true by (symmetry; apply andb_true_iff; rewrite !Z.leb_le; lia). f_equal. lia.
    + replace ((48 <=? 65 + (d - 10)) && (65 + (d - 10) <=? 57)) with false by (symmetry; apply andb_false_iff; rewrite !Z.leb_gt; lia).
      replace ((97 <=? 65 + (d - 10)) && (65 + (d - 10) <=? 102)) with false by (symmetry; apply andb_false_iff; rewrite !Z.leb_gt; lia).
      replace ((65 <=? 65 + (d - 10)) && (65 + (d - 10) <=? 70)) with true by (symmetry; apply andb_true_iff; rewrite !Z.leb_le; lia). f_equal. lia.
Qed.
Lemma hex_ascii : forall d c, hex_char d c -> utf8_len c = 1%nat.
Proof. intros d c H. unfold utf8_len. replace (c <? 128) with true; auto. symmetry. apply Z.ltb_lt. unfold hex_char in H. lia. Qed.
Lemma blen_ge : forall t, (length t <= blen t)%nat.
Proof. induction t as [|c t IH]; [auto|]. change (blen (c :: t)) with (utf8_len c + blen t)%nat. cbn [length]. assert (1 <= utf8_len c)%nat by (unfold utf8_len; destruct (c <? 128), (c <? 2048), (c <? 65536); lia). lia. Qed.
Lemma bind_inv : forall A B (r : res A) (f : A -> res B) b, bind r f = Ok b -> exists a, r = Ok a /\ f a = Ok b.
Proof. intros A B [a| |] f b H; cbn in H; try discriminate. eauto. Qed.
Lemma nth_char_inv : forall t i c, nth_char t i = Ok c -> nth_error t i = Some c.
Proof. intros t i c. unfold nth_char. destruct (nth_error t i); congruence. Qed.
Lemma parse_hex_inv : forall t c, parse_hex t = Ok c ->
  (exists x y z a b d, t = [a; b; d] /\ hex_char x a /\ hex_char y b /\ hex_char z d /\ c = Rgb (17 * x) (17 * y) (17 * z)) \/
  (exists r1 r2 g1 g2 b1 b2 a b d e f g, t = [a; b; d; e; f; g] /\ hex_char r1 a /\ hex_char r2 b /\ hex_char g1 d /\ hex_char g2 e /\ hex_char b1 f /\ hex_char b2 g /\ c = Rgb (16 * r1 + r2) (16 * g1 + g2) (16 * b1 + b2)).
Proof.
  intros t c H. pose proof (blen_ge t) as G. unfold parse_hex in H. destruct (blen t) as [|[|[|[|[|[|[|n]]]]]]]; try discriminate H.
  - left. apply bind_inv in H. destruct H as (x & H1 & H). apply bind_inv in H. destruct H as (y & H2 & H). apply bind_inv in H. destruct H as (z & H3 & H).
    apply bind_inv in H1, H2, H3. destruct H1 as (a & A & H1), H2 as (b & B & H2), H3 as (d & D & H3). apply nth_char_inv in A, B, D. apply hex_ok in H1, H2, H3.
    destruct t as [|t0 [|t1 [|t2 [|t3 t]]]]; cbn in A, B, D, G; try discriminate; try lia. injection A as ->. injection B as ->. injection D as ->. injection H as <-. exists x, y, z, a, b, d. repeat split; auto. f_equal; lia.
  - right. apply bind_inv in H. destruct H as (x & H1 & H). apply bind_inv in H. destruct H as (y & H2 & H). apply bind_inv in H. destruct H as (z & H3 & H). unfold hex_pair_at in H1, H2, H3.
    apply bind_inv in H1, H2, H3. destruct H1 as (a & A & H1), H2 as (b & B & H2), H3 as (d & D & H3). apply bind_inv in H1, H2, H3. destruct H1 as (a' & A' & H1), H2 as (b' & B' & H2), H3 as (d' & D' & H3).
    apply nth_char_inv in A, B, D, A', B', D'. unfold hex_pair in H1, H2, H3. apply bind_inv in H1, H2, H3. destruct H1 as (r1 & R1 & H1), H2 as (g1 & G1 & H2), H3 as (b1 & B1 & H3).
    apply bind_inv in H1, H2, H3. destruct H1 as (r2 & R2 & H1), H2 as (g2 & G2 & H2), H3 as (b2 & B2 & H3). injection H1 as <-. injection H2 as <-. injection H3 as <-. injection H as <-.
    apply hex_ok in R1, R2, G1, G2, B1, B2. destruct t as [|t0 [|t1 [|t2 [|t3 [|t4 [|t5 [|t6 t]]]]]]]; cbn in A, B, D, A', B', D', G; try discriminate; try lia.
    injection A as ->. injection B as ->. injection D as ->. injection A' as ->. injection B' as ->. injection D' as ->.
    exists r1, r2, g1, g2, b1, b2, a, a', b, b', d, d'. repeat split; auto. f_equal; lia.
Qed.
Lemma parse_hex_short : forall x y z a b c, hex_char x a -> hex_char y b -> hex_char z c -> parse_hex [a; b; c] = Ok (Rgb (17 * x) (17 * y) (17 * z)).
Proof.
  intros x y z a b c A B C. unfold parse_hex. unfold blen. cbn [fold_right]. rewrite (hex_ascii x a A), (hex_ascii y b B), (hex_ascii z c C). cbn [plus nth_char nth_error bind].
  unfold nth_char. cbn [nth_error bind]. rewrite (proj2 (hex_ok a x) A), (proj2 (hex_ok b y) B), (proj2 (hex_ok c z) C). cbn [bind]. f_equal. f_equal; lia.
Qed.
Lemma parse_hex_long : forall r1 r2 g1 g2 b1 b2 a b c d e f, hex_char r1 a -> hex_char r2 b -> hex_char g1 c -> hex_char g2 d -> hex_char b1 e -> hex_char b2 f ->
  parse_hex [a; b; c; d; e; f] = Ok (Rgb (16 * r1 + r2) (16 * g1 + g2) (16 * b1 + b2)).
Proof.
  intros r1 r2 g1 g2 b1 b2 a b c d e f A B C D E F. unfold parse_hex. unfold blen. cbn [fold_right]. rewrite (hex_ascii _ a A), (hex_ascii _ b B), (hex_ascii _ c C), (hex_ascii _ d D), (hex_ascii _ e E), (hex_ascii _ f F). cbn [plus].
  unfold hex_pair_at, nth_char. cbn [nth_error bind]. unfold hex_pair. rewrite (proj2 (hex_ok _ _) A), (proj2 (hex_ok _ _) B), (proj2 (hex_ok _ _) C), (proj2 (hex_ok _ _) D), (proj2 (hex_ok _ _) E), (proj2 (hex_ok _ _) F). cbn [bind]. f_equal. f_equal; lia.
Qed.
Lemma u8_ok : forall t n, u8 t = Ok n <-> n <= 255 /\ (decimal n t \/ exists d, t = 43 :: d /\ decimal n d).
Proof.
  intros t n. unfold u8, parse_unsigned. set (d := match t with 43 :: r => r | _ => t end).
  assert (DD : (t = d /\ nth_error t 0 <> Some 43) \/ t = 43 :: d).
  { unfold d. destruct t as [|c t]; [left; split; auto; discriminate|]. destruct (Z.eq_dec c 43) as [->|N]; [right; reflexivity|left].
    assert (X : (match c with 43 => t | _ => c :: t end) = c :: t). { destruct c as [|p|p]; auto. repeat (destruct p as [p|p|]; auto); congruence. }
    split; [|cbn; congruence]. symmetry. exact X. }
  clearbody d. assert (DEC : forall m, (if is_nil d then None else if forallb is_digit d && (digits_value d <=? 255) then Some (digits_value d) else None) = Some m <-> decimal m d /\ m <= 255).
  { intros m. unfold decimal. destruct d as [|c r] eqn:ED; [cbn; split; [discriminate|intros [[N _] _]; congruence]|]. rewrite <- ED. assert (N : is_nil d = false) by (subst; reflexivity). rewrite N. destruct (forallb is_digit d) eqn:F; cbn [andb].
    - assert (FF : Forall (fun c => is_digit c = true) d) by (apply Forall_forall; rewrite forallb_forall in F; exact F). destruct (digits_value d <=? 255) eqn:L; [apply Z.leb_le in L|apply Z.leb_gt in L].
      + split; [intros E; injection E as <-; repeat split; auto; subst; discriminate|intros [(_ & _ & <-) _]; reflexivity].
      + split; [discriminate|intros [(_ & _ & <-) X]; lia].
    - split; [discriminate|]. intros [(_ & FF & _) _]. exfalso. assert (T : forallb is_digit d = true) by (apply forallb_forall; rewrite Forall_forall in FF; exact FF). congruence. }
  assert (PL : ~ is_digit 43 = true) by (cbn; discriminate).
  assert (Q : (match (if is_nil d then None else if forallb is_digit d && (digits_value d <=? 255) then Some (digits_value d) else None) with Some m => Ok m | None => Err end = Ok n) <-> (decimal n d /\ n <= 255)).
  { rewrite <- DEC. destruct (if is_nil d then None else if forallb is_digit d && (digits_value d <=? 255) then Some (digits_value d) else None); split; intros E; try discriminate; congruence. }
  rewrite Q. destruct DD as [[-> ND] | ->].
  - split; [intros [A B]; auto|]. intros [B [A|(d' & E & _)]]; auto. exfalso. apply ND. rewrite E. reflexivity.
  - split; [intros [A B]; split; auto; right; eauto|]. intros [B [A|(d' & E & A)]]; [|injection E as <-; auto]. exfalso. destruct A as (_ & F & _). inversion F; subst. auto.
Qed.
Lemma decimal_solid : forall n t, decimal n t -> solid t.
Proof. intros n t (N & F & _). split; auto. eapply Forall_impl; [|exact F]. intros c C. unfold is_digit in C. apply andb_true_iff in C. rewrite !Z.leb_le in C. unfold is_ws. repeat (apply orb_false_iff; split); try (apply andb_false_iff; rewrite ?Z.leb_gt; lia); apply Z.eqb_neq; lia. Qed.
Lemma solid_tight : forall t, solid t -> tight t.
Proof. intros t [N F]. split; [|split; auto]. { intros x r ->. inversion F; auto. } intros x r ->. rewrite Forall_app in F. destruct F as [_ F]. inversion F; auto. Qed.
Lemma numeral_u8 : forall n t, u8 (trim t) = Ok n <-> numeral n t.
Proof.
  intros n t. rewrite u8_ok. split.
  - intros [L D]. split; auto. destruct (trim_split t) as (a & b & A & B & E). exists a, b, (trim t). auto.
  - intros [L (a & b & d & -> & A & B & D)]. split; auto. assert (T : tight d). { apply solid_tight. destruct D as [D|(d' & -> & D)]; [eapply decimal_solid; eauto|]. destruct (decimal_solid _ _ D) as [_ F]. split; [discriminate|constructor; auto]. }
    rewrite trim_app_l, trim_app_r, tight_trim by auto. exact D.
Qed.
Lemma no_comma : forall n t, numeral n t -> ~ In 44 t.
Proof.
  intros n t [_ (a & b & d & -> & A & B & D)] I. assert (W : forall g, blank g -> ~ In 44 g) by (intros g G J; unfold blank in G; rewrite Forall_forall in G; specialize (G 44 J); discriminate G).
  assert (DG : forall m x, decimal m x -> ~ In 44 x) by (intros m x (_ & F & _) J; rewrite Forall_forall in F; specialize (F 44 J); discriminate F).
  apply in_app_iff in I. destruct I as [I|I]; [exact (W a A I)|]. apply in_app_iff in I. destruct I as [I|I]; [|exact (W b B I)]. destruct D as [D|(d' & -> & D)]; [exact (DG _ _ D I)|]. destruct I as [I|I]; [discriminate|]. exact (DG _ _ D I).
Qed.
Lemma rgb_func : forall t c, parse_rgb_func t = Ok c <-> exists r g b p1 p2 p3, t = p1 ++ [44] ++ p2 ++ [44] ++ p3 /\ numeral r p1 /\ numeral g p2 /\ numeral b p3 /\ c = Rgb r g b.
Proof.
  intros t c. unfold parse_rgb_func. split.
  - intros H. destruct (split_char 44 t) as [|p1 [|p2 [|p3 [|p4 l]]]] eqn:S; try discriminate H. cbn [map] in H. apply bind_inv in H. destruct H as (r & R & H). apply bind_inv in H. destruct H as (g & G & H). apply bind_inv in H. destruct H as (b & B & H). injection H as <-.
    apply numeral_u8 in R, G, B. exists r, g, b, p1, p2, p3. pose proof (glue_split 44 t) as E. rewrite S in E. cbn [glue] in E. split; [symmetry; exact E|auto].
  - intros (r & g & b & p1 & p2 & p3 & -> & R & G & B & ->). change (p1 ++ [44] ++ p2 ++ [44] ++ p3) with (glue 44 [p1; p2; p3]). rewrite split_glue; [|discriminate|repeat (apply Forall_cons; [eapply no_comma; eauto|]); constructor]. cbn [map].
    rewrite (proj2 (numeral_u8 r p1) R), (proj2 (numeral_u8 g p2) G), (proj2 (numeral_u8 b p3) B). reflexivity.
Qed.

Section Words.
Variable lower : text -> text.
Variable known_color : text -> bool.
Notation color_parse := (color_parse lower known_color).
Notation style_words := (style_words lower known_color).
Notation colour_text := (colour_text lower known_color).
Notation colour_core := (colour_core lower known_color).
Notation spells := (spells lower known_color).

Lemma starts_iff : forall p t, starts_with t p = true <-> exists r, t = p ++ r.
Proof.
  induction p as [|x p IH]; intros [|y t]; cbn; split; intros H; eauto; try discriminate.
  - destruct H as [b E]. discriminate.
  - apply andb_true_iff in H. destruct H as [H1 H2]. apply Z.eqb_eq in H1. apply IH in H2. destruct H2 as [r ->]. exists r. congruence.
  - destruct H as [r E]. injection E as -> ->. rewrite Z.eqb_refl. apply IH. eauto.
Qed.
Lemma ends_iff : forall p t, ends_with t p = true <-> exists r, t = r ++ p.
Proof.
  intros p t. unfold ends_with. rewrite starts_iff. split; intros [r E]; exists (rev r).
  - apply (f_equal (@rev char)) in E. rewrite rev_involutive, rev_app_distr, rev_involutive in E. exact E.
  - rewrite E, rev_app_distr. reflexivity.
Qed.
Lemma rgb_shape : forall t, starts_with t (str "rgb(") && ends_with t (str ")") = true <-> exists p, t = str "rgb(" ++ p ++ str ")".
Proof.
  intros t. rewrite andb_true_iff, starts_iff, ends_iff. split.
  - intros [[r ->] [s E]]. destruct r as [|x r _] using rev_ind; [exfalso|].
    + rewrite app_nil_r in E. apply (f_equal (@rev char)) in E. rewrite rev_app_distr in E. cbn in E. discriminate E.
    + exists r. rewrite app_assoc in E. apply app_inj_tail in E. destruct E as [_ ->]. reflexivity.
  - intros [p ->]. split; [eauto|]. exists (str "rgb(" ++ p). rewrite app_assoc. reflexivity.
Qed.
Lemma rgb_slice : forall p, removelast (skipn 4 (str "rgb(" ++ p ++ str ")")) = p.
Proof. intros p. cbn [str app skipn]. change (skipn 0 (p ++ str ")")) with (p ++ str ")"). cbn. apply removelast_last. Qed.

Lemma color_parse_core : forall t c, trim t <> [] -> (color_parse t = Ok c <-> colour_core (trim t) c).
Proof.
  intros t c N. unfold Markup_Model.color_parse. set (u := trim t) in *. clearbody u. destruct u as [|x r] eqn:U; [congruence|]. rewrite <- U in *. clear N. split.
  - destruct (Z.eqb_spec x 35) as [->|X].
    + intros H. apply parse_hex_inv in H. destruct H as [(a & b & d & a' & b' & d' & E & A & B & D & ->)|(r1 & r2 & g1 & g2 & b1 & b2 & a & b & d & e & f & g & E & H1 & H2 & H3 & H4 & H5 & H6 & ->)]; rewrite U, E; constructor; auto.
    + destruct (starts_with u (str "rgb(") && ends_with u (str ")")) eqn:S.
      * apply rgb_shape in S. destruct S as [p E]. rewrite E, rgb_slice. intros H. apply rgb_func in H. destruct H as (a & b & d & p1 & p2 & p3 & -> & A & B & D & ->). rewrite <- !app_assoc. constructor; auto.
      * unfold parse_named. destruct (known_color (lower u)) eqn:K; [|discriminate]. intros H. injection H as <-. constructor; auto; [rewrite U; cbn; congruence|]. intros p E. assert (T : starts_with u (str "rgb(") && ends_with u (str ")") = true) by (apply rgb_shape; eauto). congruence.
  - intros H. inversion H as [a b d a' b' d' A B D E1 E2|r1 r2 g1 g2 b1 b2 a b d e f g H1 H2 H3 H4 H5 H6 E1 E2|r0 g b p1 p2 p3 R G B E1 E2|t0 N1 N2 K E1 E2].
    + rewrite U in E1. injection E1 as <- <-. rewrite Z.eqb_refl. apply parse_hex_short; auto.
    + rewrite U in E1. injection E1 as <- <-. rewrite Z.eqb_refl. apply parse_hex_long; auto.
    + assert (X : x = 114) by (rewrite U in E1; cbn in E1; injection E1; auto). subst x. cbn [Z.eqb]. assert (SH : u = str "rgb(" ++ (p1 ++ [44] ++ p2 ++ [44] ++ p3) ++ str ")") by (rewrite <- E1, <- !app_assoc; reflexivity).
      rewrite E1. change (114 =? 35)%positive with false. cbv iota. rewrite (proj2 (rgb_shape u)) by (eexists; exact SH). rewrite SH, rgb_slice. apply rgb_func. exists r0, g, b, p1, p2, p3. auto.
    + subst t0 c. destruct (Z.eqb_spec x 35) as [->|X]; [exfalso; apply N1; rewrite U; reflexivity|]. destruct (starts_with u (str "rgb(") && ends_with u (str ")")) eqn:S; [apply rgb_shape in S; destruct S as [p E]; exfalso; exact (N2 p E)|].
      unfold parse_named. rewrite K. reflexivity.
Qed.
Lemma color_parse_text : forall t c, color_parse t = Ok c <-> colour_text t c.
Proof.
  intros t c. split.
  - intros H. destruct (list_eq_dec Z.eq_dec (trim t) []) as [E|N]; [unfold Markup_Model.color_parse in H; rewrite E in H; discriminate|]. apply color_parse_core in H; auto.
    destruct (trim_split t) as (a & b & A & B & E). destruct (trim_tight t N) as (T1 & T2 & T3). exists a, b, (trim t). repeat split; auto.
  - intros (a & b & core & -> & A & B & C & T1 & T2 & T3). assert (E : trim (a ++ core ++ b) = core) by (rewrite trim_app_l, trim_app_r, tight_trim by (auto; repeat split; auto); reflexivity). apply color_parse_core; rewrite E; auto.
Qed.

(** *** Words *)
Lemma hex_lower : forall d c, hex_char d c -> hex_char d (ascii_lower c).
Proof. intros d c H. unfold ascii_lower. destruct ((65 <=? c) && (c <=? 90)) eqn:E; auto. apply andb_true_iff in E. rewrite !Z.leb_le in E. unfold hex_char in *. lia. Qed.
Lemma hex_small : forall d c, hex_char d c -> 0 <= c < 128.
Proof. intros d c H. unfold hex_char in H. lia. Qed.
Lemma parse_unsigned_no_panic : forall t, u8 t <> Panic.
Proof. intros t. unfold u8. destruct (parse_unsigned 255 t); discriminate. Qed.
Lemma panic_hash : forall t, color_parse t = Panic -> nth_error (trim t) 0 = Some 35.
Proof.
  intros t. unfold Markup_Model.color_parse. destruct (trim t) as [|x r] eqn:T; [discriminate|]. rewrite <- T. destruct (Z.eqb_spec x 35) as [->|X]; [rewrite T; reflexivity|].
  destruct (starts_with (trim t) (str "rgb(") && ends_with (trim t) (str ")")).
  - unfold parse_rgb_func. intros H. exfalso. destruct (map trim (split_char 44 (removelast (skipn 4 (trim t))))) as [|a [|b [|c [|d l]]]]; try discriminate H.
    pose proof (parse_unsigned_no_panic a). pose proof (parse_unsigned_no_panic b). pose proof (parse_unsigned_no_panic c). destruct (u8 a); cbn in H; try congruence; destruct (u8 b); cbn in H; try congruence; destruct (u8 c); cbn in H; congruence.
  - unfold parse_named. destruct (known_color (lower (trim t))); discriminate.
Qed.
Lemma hex_solid : forall d c, hex_char d c -> is_ws c = false.
Proof. intros d c H. unfold hex_char in H. unfold is_ws. repeat (apply orb_false_iff; split); try (apply andb_false_iff; rewrite ?Z.leb_gt; lia); apply Z.eqb_neq; lia. Qed.
Lemma core_solid : forall t c, Forall (fun x => is_ws x = false) (35 :: t) -> colour_core (35 :: t) c -> color_parse (35 :: t) = Ok c.
Proof. intros t c F C. assert (T : trim (35 :: t) = 35 :: t) by (apply tight_trim, solid_tight; split; [discriminate|exact F]). apply color_parse_core; rewrite T; [discriminate|exact C]. Qed.
Hypothesis low : lowercase_like lower.
Lemma color_panic_lower : forall w c, solid w -> color_parse w = Ok c -> color_parse (lower w) <> Panic.
Proof.
  intros w c W C P. destruct low as [LA LH]. pose proof (panic_hash _ P) as H. apply LH in H. assert (T : trim w = w) by (apply tight_trim, solid_tight, W). rewrite T in H.
  apply color_parse_core in C; [|rewrite T; destruct W; auto]. rewrite T in C. destruct C as [x y z a b d A B D|r1 r2 g1 g2 b1 b2 a b d e f g A B D E F G|r g b p1 p2 p3 R G B|u N1 N2 K]; [..|exact (N1 H)].
  - assert (LW : lower [35; a; b; d] = [35; ascii_lower a; ascii_lower b; ascii_lower d]). { rewrite LA; [reflexivity|]. apply hex_small in A, B, D. repeat (apply Forall_cons; [lia|]). constructor. }
    apply hex_lower in A, B, D. assert (CC : colour_core [35; ascii_lower a; ascii_lower b; ascii_lower d] (Rgb (17 * x) (17 * y) (17 * z))) by (constructor; auto).
    assert (X : color_parse (lower [35; a; b; d]) = Ok (Rgb (17 * x) (17 * y) (17 * z))); [|congruence]. rewrite LW. apply core_solid; auto. repeat (apply Forall_cons; [first [reflexivity|eapply hex_solid; eassumption]|]). constructor.
  - assert (LW : lower [35; a; b; d; e; f; g] = [35; ascii_lower a; ascii_lower b; ascii_lower d; ascii_lower e; ascii_lower f; ascii_lower g]). { rewrite LA; [reflexivity|]. apply hex_small in A, B, D, E, F, G. repeat (apply Forall_cons; [lia|]). constructor. }
    apply hex_lower in A, B, D, E, F, G. eassert (CC : colour_core [35; ascii_lower a; ascii_lower b; ascii_lower d; ascii_lower e; ascii_lower f; ascii_lower g] _) by (constructor; eassumption).
    assert (X : color_parse (lower [35; a; b; d; e; f; g]) = Ok (Rgb (16 * r1 + r2) (16 * g1 + g2) (16 * b1 + b2))); [|congruence]. rewrite LW. apply core_solid; auto. repeat (apply Forall_cons; [first [reflexivity|eapply hex_solid; eassumption]|]). constructor.
  - cbn in H. discriminate H.
Qed.
Definition attr_style (a : attr) : text_style :=
  match a with
  | Bold => TextStyle true false false false false false false | Dim => TextStyle false true false false false false false
  | Italic => TextStyle false false true false false false false | Underline => TextStyle false false false true false false false
  | Strike => TextStyle false false false false true false false | Reverse => TextStyle false false false false false true false
  | Blink => TextStyle false false false false false false true
  end.
Lemma modifier_spec : forall w m, parse_modifier w = Some m <-> exists n a, w = str n /\ In (n, a) attr_names /\ m = attr_style a.
Proof.
  intros w m. split.
  - unfold parse_modifier, mem_text. cbn [existsb]. rewrite !orb_false_r.
    assert (T : forall s a, text_eqb w (str s) = true -> In (s, a) attr_names -> attr_style a = m -> exists n a, w = str n /\ In (n, a) attr_names /\ m = attr_style a) by (intros s a E I <-; apply text_eqb_iff in E; eauto).
    intros H.
    repeat match type of H with
    | (if ?b then _ else _) = _ => destruct b eqn:?B
    end; try discriminate H; injection H as <-;
    repeat match goal with B : _ || _ = true |- _ => apply orb_true_iff in B; destruct B as [B|B] end;
    match goal with B : text_eqb w (str ?s) = true |- _ => eapply (T s); [exact B|cbn; tauto|reflexivity] end.
  - intros (n & a & -> & I & ->). unfold attr_names in I. cbn [In] in I. repeat (destruct I as [I|I]; [injection I as <- <-; reflexivity|]). destruct I.
Qed.
Definition item_step (s : style) (i : item) : style :=
  match i with
  | Attr a => Style (s_fg s) (s_bg s) (ts_apply (s_text s) (attr_style a))
  | Fg c => Style (Some c) (s_bg s) (s_text s)
  | Bg c => Style (s_fg s) (Some c) (s_text s)
  end.
Lemma on_not_attr : forall n a, In (n, a) attr_names -> str n <> str "on".
Proof. intros n a I. unfold attr_names in I. cbn [In] in I. repeat (destruct I as [I|I]; [injection I as <- <-; discriminate|]). destruct I. Qed.
Lemma words_spell : forall ws s st, Forall solid ws -> (style_words s ws = Ok st <-> exists l, spells ws l /\ st = fold_left item_step l s).
Proof.
  assert (F : forall ws l, spells ws l -> Forall solid ws -> forall s, style_words s ws = Ok (fold_left item_step l s)).
  { intros ws l H. induction H as [|w n a ws l E I S IH|w cw c ws l E C S IH|w c ws l N1 N2 C S IH]; intros SO s; cbn [Markup_Model.style_words fold_left]; cbv zeta; repeat match goal with X : Forall solid (_ :: _) |- _ => inversion X; clear X; subst end.
    - reflexivity.
    - rewrite E. rewrite (proj2 (text_eqb_no (str n) (str "on"))) by (eapply on_not_attr; eauto). rewrite (proj2 (modifier_spec (str n) (attr_style a))) by eauto. rewrite IH by assumption. reflexivity.
    - rewrite E. rewrite (proj2 (text_eqb_iff (str "on") (str "on")) eq_refl). apply color_parse_text in C. rewrite C. cbn [bind]. rewrite IH by assumption. reflexivity.
    - rewrite (proj2 (text_eqb_no _ _) N1). destruct (parse_modifier (lower w)) as [m|] eqn:M; [exfalso; apply modifier_spec in M; destruct M as (n & a & E & I & _); exact (N2 n a I E)|].
      destruct C as [C|[NC C]]; [apply color_parse_text in C; rewrite C; rewrite IH by assumption; reflexivity|]. apply color_parse_text in C.
      destruct (color_parse (lower w)) as [d| |] eqn:D; [exfalso; apply (NC d); apply color_parse_text; exact D| |].
      + rewrite C, IH by assumption. reflexivity.
      + exfalso. eapply color_panic_lower; eauto. }
  intros ws s st SO. split; [|intros (l & S & ->); apply F; assumption].
  remember (length ws) as n. assert (L : (length ws <= n)%nat) by lia. clear Heqn. revert ws s L SO. induction n as [|n IH]; intros ws s L SO H.
  { destruct ws; [|cbn in L; lia]. cbn in H. injection H as <-. exists []. split; [constructor|reflexivity]. }
  destruct ws as [|w ws]. { cbn in H. injection H as <-. exists []. split; [constructor|reflexivity]. }
  cbn [Markup_Model.style_words] in H. cbv zeta in H. destruct (text_eqb (lower w) (str "on")) eqn:ON.
  - destruct ws as [|cw ws]; [discriminate|]. apply bind_inv in H. destruct H as (c & C & H). apply IH in H; [|cbn in L; lia|repeat match goal with X : Forall solid (_ :: _) |- _ => inversion X; clear X; subst end; assumption]. destruct H as (l & S & ->). exists (Bg c :: l). split; [|reflexivity]. constructor; auto; [apply text_eqb_iff; exact ON|apply color_parse_text; exact C].
  - destruct (parse_modifier (lower w)) as [m|] eqn:M.
    + apply IH in H; [|cbn in L; lia|repeat match goal with X : Forall solid (_ :: _) |- _ => inversion X; clear X; subst end; assumption]. destruct H as (l & S & ->). pose proof M as M'. apply modifier_spec in M'. destruct M' as (nm & a & E & I & ->). exists (Attr a :: l). split; [|reflexivity]. econstructor; eauto.
    + assert (NA : forall n a, In (n, a) attr_names -> lower w <> str n). { intros nm a I E. assert (X : parse_modifier (lower w) = Some (attr_style a)) by (apply modifier_spec; eauto). congruence. }
      apply text_eqb_no in ON. destruct (color_parse (lower w)) as [c| |] eqn:C; [..|discriminate].
      * apply IH in H; [|cbn in L; lia|repeat match goal with X : Forall solid (_ :: _) |- _ => inversion X; clear X; subst end; assumption]. destruct H as (l & S & ->). exists (Fg c :: l). split; [|reflexivity]. constructor; auto. left. apply color_parse_text. exact C.
      * destruct (color_parse w) as [c| |] eqn:C2; try discriminate. apply IH in H; [|cbn in L; lia|repeat match goal with X : Forall solid (_ :: _) |- _ => inversion X; clear X; subst end; assumption]. destruct H as (l & S & ->). exists (Fg c :: l). split; [|reflexivity]. constructor; auto. right. split; [|apply color_parse_text; exact C2].
        intros d D. apply color_parse_text in D. congruence.
Qed.

Lemma meaning_fold : forall l, meaning l (fold_left item_step l style_default).
Proof.
  assert (G : forall l s, s_fg (fold_left item_step l s) = fold_left (fun o i => match (match i with Fg c => Some c | _ => None end) with Some x => Some x | None => o end) l (s_fg s) /\
    s_bg (fold_left item_step l s) = fold_left (fun o i => match (match i with Bg c => Some c | _ => None end) with Some x => Some x | None => o end) l (s_bg s) /\
    forall a, has a (fold_left item_step l s) = true <-> has a s = true \/ In (Attr a) l).
  { induction l as [|i l IH]; intros s; cbn [fold_left]. { repeat split; auto. intros [H|[]]; exact H. }
    destruct (IH (item_step s i)) as (A & B & C). rewrite A, B. split; [destruct i; reflexivity|split; [destruct i; reflexivity|]]. intros a. rewrite C. split.
    - intros H. destruct i as [b|c|c]; cbn [item_step] in H; [|destruct H as [H|H]; [left; exact H|right; right; exact H]..]. destruct H as [H|H]; [|right; right; exact H].
      unfold has, ts_apply in H. cbn in H. destruct a, b; cbn in H; rewrite ?orb_false_r, ?orb_true_r in H; cbn [In]; try (right; left; reflexivity); left; exact H.
    - intros H. destruct i as [b|c|c]; cbn [item_step]; [|destruct H as [H|[H|H]]; [left; exact H|discriminate|right; exact H]..]. destruct H as [H|[H|H]]; [left|left|right; exact H].
      + unfold has, ts_apply in *. cbn. destruct a; rewrite H; reflexivity.
      + injection H as ->. unfold has, ts_apply. cbn. destruct a; cbn; apply orb_true_r. }
  intros l. destruct (G l style_default) as (A & B & C). split; [exact A|split; [exact B|]]. intros a. rewrite C. split; [intros [H|H]; auto; destruct a; discriminate|auto].
Qed.
Lemma meaning_unique : forall l s1 s2, meaning l s1 -> meaning l s2 -> s1 = s2.
Proof.
  intros l [f1 b1 t1] [f2 b2 t2] (A1 & B1 & C1) (A2 & B2 & C2). cbn in A1, A2, B1, B2. subst. f_equal. destruct t1, t2.
  assert (Q : forall a, has a (Style (last_some (fun i => match i with Fg c => Some c | _ => None end) l) (last_some (fun i => match i with Bg c => Some c | _ => None end) l) (TextStyle ts_bold ts_dim ts_italic ts_underline ts_strike ts_reverse ts_blink)) = has a (Style (last_some (fun i => match i with Fg c => Some c | _ => None end) l) (last_some (fun i => match i with Bg c => Some c | _ => None end) l) (TextStyle ts_bold0 ts_dim0 ts_italic0 ts_underline0 ts_strike0 ts_reverse0 ts_blink0))).
  { intros a. apply eq_true_iff_eq. rewrite C1, C2. reflexivity. }
  pose proof (Q Bold). pose proof (Q Dim). pose proof (Q Italic). pose proof (Q Underline). pose proof (Q Strike). pose proof (Q Reverse). pose proof (Q Blink). cbn in *. congruence.
Qed.
Lemma split_solid : forall t, Forall solid (split_ws t).
Proof. intros t. pose proof (split_spaced t) as S. induction S; constructor; auto. Qed.
Lemma style_parse_words : forall t st, style_parse lower known_color t = Ok st <-> exists ws l, ws <> [] /\ spaced ws t /\ spells ws l /\ meaning l st.
Proof.
  intros t st. unfold style_parse. split.
  - intros H. destruct (trim t) as [|c r] eqn:T; [discriminate|]. rewrite <- T in H. rewrite split_ws_trim in H. apply words_spell in H; [|apply split_solid]. destruct H as (l & S & ->). exists (split_ws t), l. split; [|split; [apply split_spaced|split; [exact S|apply meaning_fold]]].
    intros N. apply trim_nil_iff in N. congruence.
  - intros (ws & l & N & SP & S & M). apply spaced_split in SP. destruct (trim t) as [|c r] eqn:T; [apply trim_nil_iff in T; congruence|]. rewrite <- T, split_ws_trim, SP. apply words_spell; [rewrite <- SP; apply split_solid|].
    exists l. split; auto. eapply meaning_unique; eauto. apply meaning_fold.
Qed.
End Words.
