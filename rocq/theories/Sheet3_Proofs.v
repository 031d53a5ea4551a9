(** Declarations, rules and whole stylesheets. *)
From Coq Require Import String ZArith QArith List Bool Lia.
From Verif Require Import Text_Model Css_Model Variables_Model Variables_Spec Variables_Proofs Keys_Proofs Sheet_Model Sheet_Spec Sheet_Proofs Sheet2_Proofs.
Import ListNotations.
Notation length := List.length.
Open Scope Z_scope.
Open Scope list_scope.

(** *** Parsers that stop before a semicolon or closing brace *)
Definition clean (v : text) : Prop := Forall (fun c => ~ In c [123; 91; 59; 125]) v.
Definition over (d : char) : Prop := d = 59 \/ d = 125.
Definition conf {X} (p : parser X) : Prop := forall v d k, clean v -> over d ->
  match p (v ++ d :: k) with Ok (r, _) => exists v', r = v' ++ d :: k /\ clean v' | Err => True | Panic => False end.
Lemma conf_bind : forall X Y (p : parser X) (f : X -> parser Y), conf p -> (forall a, conf (f a)) -> conf (pbind p f).
Proof.
  intros X Y p f P F v d k V D. unfold pbind. specialize (P v d k V D). destruct (p (v ++ d :: k)) as [[r a]| |]; auto.
  destruct P as [v' [-> V']]. exact (F a v' d k V' D).
Qed.
Lemma conf_ret : forall X (a : X), conf (pret a). Proof. intros X a v d k V D. exists v. auto. Qed.
Lemma conf_map : forall X Y (p : parser X) (f : X -> Y), conf p -> conf (pmap p f).
Proof. intros. apply conf_bind; [assumption|]. intro. apply conf_ret. Qed.
Lemma conf_pre : forall X Y (p : parser X) (q : parser Y), conf p -> conf q -> conf (preceded p q).
Proof. intros. apply conf_bind; [assumption|]. intro. assumption. Qed.
Lemma conf_alt : forall X (p q : parser X), conf p -> conf q -> conf (palt p q).
Proof. intros X p q P Q v d k V D. unfold palt. specialize (P v d k V D). destruct (p (v ++ d :: k)) as [[r a]| |]; auto. exact (Q v d k V D). Qed.
Lemma span_conf : forall p v d k, clean v -> p d = false -> exists v', snd (span p (v ++ d :: k)) = v' ++ d :: k /\ clean v'.
Proof.
  intros p v d k V D. induction v as [|x v IH]; cbn [app span].
  - rewrite D. exists []. auto.
  - inversion V; subst. destruct (p x).
    + destruct (IH H2) as [v' [E V']]. destruct (span p (v ++ d :: k)) as [a b]. cbn in *. exists v'. auto.
    + exists (x :: v). auto.
Qed.
Lemma conf_ms0 : conf multispace0.
Proof.
  intros v d k V D. unfold multispace0. destruct (span_conf space v d k V) as [v' [E V']]; [destruct D as [-> | ->]; reflexivity|].
  destruct (span space (v ++ d :: k)) as [a b]. cbn in E. exists v'. auto.
Qed.
Lemma conf_tw1 : forall p, p 59 = false -> p 125 = false -> conf (take_while1 p).
Proof.
  intros p P Q v d k V D. unfold take_while1. destruct (span_conf p v d k V) as [v' [E V']]; [destruct D as [-> | ->]; assumption|].
  destruct (span p (v ++ d :: k)) as [a b]. cbn in E. destruct (is_nil a); [exact I|]. exists v'. auto.
Qed.
Lemma conf_char : forall c, c <> 59 -> c <> 125 -> conf (pchar c).
Proof.
  intros c N1 N2 v d k V D. destruct v as [|x v]; cbn [app pchar].
  - destruct (d =? c) eqn:E; [apply Z.eqb_eq in E; destruct D; lia|exact I].
  - inversion V; subst. destruct (x =? c); [|exact I]. exists v. auto.
Qed.
Lemma conf_many : forall X (p : parser X), conf p -> conf (many0 p).
Proof.
  intros X p P v d k V D. unfold many0. generalize (S (length (v ++ d :: k))). intro n. revert v V. induction n as [|n IH]; intros v V; [exact I|].
  cbn [many0_go]. specialize (P v d k V D). destruct (p (v ++ d :: k)) as [[r a]| |]; [|exists v; auto|exact P].
  destruct P as [v' [-> V']]. destruct (length (v' ++ d :: k) =? length (v ++ d :: k))%nat; [exact I|].
  specialize (IH v' V'). destruct (many0_go n p (v' ++ d :: k)) as [[r' l]| |]; auto.
Qed.
Lemma clean_not : forall c v d k, In c [123; 91] -> clean v -> over d -> pchar c (v ++ d :: k) = Err.
Proof.
  intros c v d k I V D. destruct v as [|x v]; cbn [app]; apply pchar_no.
  - cbn in I. destruct D; lia.
  - inversion V; subst. intros ->. apply H1. cbn in *. tauto.
Qed.

(** a text without opening brackets, followed by ';' or '}' *)
Definition nobr (t : text) : Prop := Forall (fun c => c <> 123 /\ c <> 91) t.
Lemma nobr_app : forall a b, nobr a -> nobr b -> nobr (a ++ b). Proof. intros. apply Forall_app. auto. Qed.
Lemma first_over : forall x d r, nobr x -> over d -> exists v d' k, x ++ d :: r = v ++ d' :: k /\ clean v /\ over d'.
Proof.
  intros x d r N D. induction N as [|c x [H1 H2] N IH].
  - exists [], d, r. split; [reflexivity|]. split; [constructor|exact D].
  - destruct (Z.eq_dec c 59) as [->|N1]; [exists [], 59, (x ++ d :: r); split; [reflexivity|]; split; [constructor|left; reflexivity]|].
    destruct (Z.eq_dec c 125) as [->|N2]; [exists [], 125, (x ++ d :: r); split; [reflexivity|]; split; [constructor|right; reflexivity]|].
    destruct IH as [v [d' [k [E [V D']]]]]. exists (c :: v), d', k. split; [cbn; rewrite E; reflexivity|]. split; [|exact D'].
    constructor; [cbn; lia|exact V].
Qed.
Lemma gap_nobr : forall g, gap g -> nobr g. Proof. intros g H. eapply Forall_impl; [|exact H]. cbn beta. intros c X. lia. Qed.
Lemma blank_nobr : forall g, blank g -> nobr g. Proof. intros g H. eapply Forall_impl; [|exact H]. intros c X. split; intros ->; discriminate. Qed.
Lemma digits_nobr : forall t n, decimal_value t n -> nobr t.
Proof. intros t n H. eapply Forall_impl; [|exact (decimal_digits t n H)]. intros c X. split; intros ->; discriminate. Qed.
Lemma gap_clean : forall g, gap g -> clean g. Proof. intros g H. eapply Forall_impl; [|exact H]. cbn. intros c X. lia. Qed.

Section Rules.
Variable alnum : char -> bool.
Variable lower : text -> text.
Variables rnd rnd64 : Q -> Q.
Variables parse_f32 parse_f64 : text -> option Q.
Variable C : Type.
Variable colour : text -> res C.
Variable with_alpha : C -> Q -> C.
Variable theme_colour : text -> C.
Variable transparent : C.
Hypothesis A : alnum_like alnum.
Hypothesis Imp : colour (str "!important") = Err.

Notation value := (value C).
Notation declaration := (declaration value).
Notation rule := (rule value).
Notation item := (item value).
Notation colour_text := (colour_text rnd parse_f32 C colour with_alpha theme_colour).
Notation base_colour := (base_colour C colour theme_colour).
Notation properties := (properties alnum lower rnd rnd64 parse_f32 parse_f64 C colour with_alpha theme_colour transparent).
Notation parse_value := (parse_value alnum lower rnd rnd64 parse_f32 parse_f64 C colour with_alpha theme_colour transparent).
Notation value_text := (value_text alnum lower rnd rnd64 parse_f32 parse_f64 C colour with_alpha theme_colour transparent).
Notation declaration_text := (declaration_text alnum lower rnd rnd64 parse_f32 parse_f64 C colour with_alpha theme_colour transparent).
Notation rule_text := (rule_text alnum lower rnd rnd64 parse_f32 parse_f64 C colour with_alpha theme_colour transparent).
Notation body_text := (body_text alnum lower rnd rnd64 parse_f32 parse_f64 C colour with_alpha theme_colour transparent).
Notation sheet_text := (sheet_text alnum lower rnd rnd64 parse_f32 parse_f64 C colour with_alpha theme_colour transparent).
Notation parse_single_declaration := (parse_single_declaration alnum lower rnd rnd64 parse_f32 parse_f64 C colour with_alpha theme_colour transparent).
Notation parse_rule := (parse_rule alnum lower rnd rnd64 parse_f32 parse_f64 C colour with_alpha theme_colour transparent).
Notation parse_rules := (parse_rules alnum lower rnd rnd64 parse_f32 parse_f64 C colour with_alpha theme_colour transparent).

Local Notation word_ok := (@Sheet2_Proofs.word_ok alnum lower parse_f32 parse_f64 C with_alpha theme_colour transparent A).
Local Notation word_bare := (@Sheet2_Proofs.word_bare alnum lower parse_f32 parse_f64 C with_alpha theme_colour transparent A).
Local Notation sep_stop := (@Sheet2_Proofs.sep_stop alnum lower parse_f32 parse_f64 C with_alpha theme_colour transparent A).
Local Notation scalar_ok := (@Sheet2_Proofs.scalar_ok lower rnd rnd64 parse_f32 parse_f64 C with_alpha theme_colour transparent).
Local Notation spacing_ok := (@Sheet2_Proofs.spacing_ok lower rnd rnd64 parse_f32 parse_f64 C with_alpha theme_colour transparent).
Local Notation opacity_ok := (@Sheet2_Proofs.opacity_ok lower rnd rnd64 parse_f32 parse_f64 C with_alpha theme_colour transparent).
Local Notation scalars_ok := (@Sheet2_Proofs.scalars_ok lower rnd rnd64 parse_f32 parse_f64 C with_alpha theme_colour transparent).
Local Notation next1 := (@Sheet2_Proofs.next1 lower rnd rnd64 parse_f32 parse_f64 C with_alpha theme_colour transparent).
Local Notation scalar_head := (@Sheet2_Proofs.scalar_head lower rnd rnd64 parse_f32 parse_f64 C with_alpha theme_colour transparent).
Local Notation edge_ok := (@Sheet2_Proofs.edge_ok alnum lower rnd rnd64 parse_f32 parse_f64 C colour with_alpha theme_colour transparent A Imp).
Local Notation style_ok := (@Sheet2_Proofs.style_ok lower parse_f32 parse_f64 C with_alpha theme_colour transparent).
Local Notation layers_ok := (@Sheet2_Proofs.layers_ok lower parse_f32 parse_f64 C with_alpha theme_colour transparent).
Local Notation u16_ok := (@Sheet2_Proofs.u16_ok lower parse_f32 parse_f64 C with_alpha theme_colour transparent).
Local Notation u16_trim := (@Sheet2_Proofs.u16_trim lower parse_f32 parse_f64 C with_alpha theme_colour transparent).
Local Notation int_head := (@Sheet2_Proofs.int_head lower parse_f32 parse_f64 C with_alpha theme_colour transparent).
Local Notation hatch_ok := (@Sheet2_Proofs.hatch_ok alnum lower rnd rnd64 parse_f32 parse_f64 C colour with_alpha theme_colour transparent A).
Local Notation keyline_ok := (@Sheet2_Proofs.keyline_ok alnum lower rnd rnd64 parse_f32 parse_f64 C colour with_alpha theme_colour transparent A).
Local Notation no_keyline_ok := (@Sheet2_Proofs.no_keyline_ok alnum lower rnd parse_f32 parse_f64 C colour with_alpha theme_colour transparent A).
Local Notation colour_end := (@Sheet2_Proofs.colour_end lower rnd rnd64 parse_f32 parse_f64 C colour with_alpha theme_colour transparent).
Local Notation ident_head := (@Sheet2_Proofs.ident_head alnum A).
Local Notation ident_tough := (@Sheet2_Proofs.ident_tough alnum A).
Local Notation scalar_bare := (@Sheet2_Proofs.scalar_bare rnd64).
Local Notation kind_ident := (@Sheet2_Proofs.kind_ident alnum lower).
Local Notation pattern_head := (@Sheet2_Proofs.pattern_head alnum lower A).
Local Notation colour_head := (@Sheet2_Proofs.colour_head rnd parse_f32 C colour with_alpha theme_colour).
Local Notation digit_ws := (@Sheet2_Proofs.digit_ws C with_alpha transparent).
Local Notation selectors_open := (@Sheet_Proofs.selectors_open alnum A).
Local Notation opener_facts := (@Sheet_Proofs.opener_facts alnum A).
Local Notation name_ascii := (@Sheet_Proofs.name_ascii alnum A).
(** *** Values *)
Ltac table H := cbn in H; repeat (destruct H as [H|H]; [injection H as <- <-; reflexivity|]); contradiction.
Lemma disp_colour : forall n f, In (n, f) (colour_properties C) -> lookup (str n) properties = Some (of_colour rnd parse_f32 C colour with_alpha theme_colour f).
Proof. intros n f H. table H. Qed.
Lemma disp_scalar : forall n f, In (n, f) (scalar_properties C) -> lookup (str n) properties = Some (of_scalar rnd64 C f).
Proof. intros n f H. table H. Qed.
Lemma disp_spacing : forall n f, In (n, f) (spacing_properties C) -> lookup (str n) properties = Some (of_value C (parse_spacing rnd64 C) f).
Proof. intros n f H. table H. Qed.
Lemma disp_edge : forall n f, In (n, f) (edge_properties C) ->
  lookup (str n) properties = Some (of_value C (parse_border_edge alnum lower rnd parse_f32 C colour with_alpha theme_colour) f).
Proof. intros n f H. table H. Qed.
Lemma disp_style : forall n f, In (n, f) (style_properties C) -> lookup (str n) properties = Some (of_style lower C f).
Proof. intros n f H. table H. Qed.
Lemma disp_int : forall n f, In (n, f) (int_properties C) ->
  lookup (str n) properties = Some (of_int C plain_u16 f) \/ lookup (str n) properties = Some (of_int C parse_u16 f).
Proof. intros n f H. cbn in H. repeat (destruct H as [H|H]; [injection H as <- <-; (left; reflexivity) || (right; reflexivity)|]). contradiction. Qed.
Lemma disp_word : forall n ks f k w t r, In (n, ks, f) (word_properties C) -> In k ks -> In w (spellings k) -> word_text alnum lower w t -> sep r ->
  parse_value (str n) (t ++ r) = Ok (r, f (VWord k)).
Proof.
  assert (G : forall words (f : value -> declaration) k w t r, lookup (str w) words = Some k -> word_text alnum lower w t -> sep r ->
    word alnum lower C words f (t ++ r) = Ok (r, f (VWord k))).
  { intros words f k w t r L W S. unfold word. exact (pmap_ok _ _ _ _ _ _ _ (word_ok _ words _ k t r W L S)). }
  assert (B : forall k w t r, lookup (str w) box_sizings = Some k -> word_text alnum lower w t -> sep r ->
    pmap (parse_box_sizing alnum lower) (fun k => DBoxSizing _ (VWord k)) (t ++ r) = Ok (r, DBoxSizing value (VWord k))).
  { intros k w t r L [W E] S. apply (pmap_ok _ _ (parse_box_sizing alnum lower) (fun k => DBoxSizing value (VWord k))). unfold parse_box_sizing.
    rewrite (pbind_ok _ _ _ _ _ _ _ (ident_ok alnum t r W (sep_stop r S))).
    assert (P : popt (preceded (pchar 45) (parse_ident alnum)) r = Ok (r, None)).
    { apply popt_err. apply pre_err. destruct S as [c [q [-> I]]]. apply pchar_no. cbn in I. lia. }
    rewrite (pbind_ok _ _ _ _ _ _ _ P). rewrite E, L. reflexivity. }
  intros n ks f k w t r H K N W S. cbn in H.
  repeat (destruct H as [H|H]; [injection H as <- <- <-; cbn in K;
    repeat (destruct K as [K|K]; [subst k; cbn in N; repeat (destruct N as [N|N]; [subst w; first [eapply G; [|exact W|exact S]; reflexivity | eapply B; [|exact W|exact S]; reflexivity]|]); contradiction|]); contradiction|]).
  contradiction.
Qed.

Lemma via : forall n (p : parser declaration) i x, lookup (str n) properties = Some p -> p i = x -> parse_value (str n) i = x.
Proof. intros n p i x L P. unfold Sheet_Model.parse_value. rewrite L. exact P. Qed.
Lemma same : forall b k n t (d : declaration), ending b k -> parse_value n (t ++ k) = Ok (k, d) ->
  exists g r, k = g ++ r /\ gap g /\ parse_value n (t ++ k) = Ok (r, d).
Proof. intros. exists [], k. split; [reflexivity|]. split; [constructor|assumption]. Qed.
Lemma word2 : forall X Y (w1 : list (string * X)) (w2 : list (string * Y)) n1 n2 v1 v2 t g u k,
  word_text alnum lower n1 t -> lookup (str n1) w1 = Some v1 -> gap g -> g <> [] -> word_text alnum lower n2 u -> lookup (str n2) w2 = Some v2 -> sep k ->
  parse_word alnum lower w1 (t ++ g ++ u ++ k) = Ok (g ++ u ++ k, v1) /\ multispace1 (g ++ u ++ k) = Ok (u ++ k, g) /\ parse_word alnum lower w2 (u ++ k) = Ok (k, v2).
Proof.
  intros X Y w1 w2 n1 n2 v1 v2 t g u k H1 L1 G N H2 L2 S. split; [|split].
  - exact (word_ok _ _ _ v1 t _ H1 L1 (gap_sep g _ G N)).
  - apply ms1; [exact G|exact N|exact (ident_tough u k (proj1 H2))].
  - exact (word_ok _ _ _ v2 u k H2 L2 S).
Qed.
Lemma three : forall k, In k [KHidden; KAuto; KScroll] -> lookup (str (spelling k)) overflows = Some k.
Proof. intros k H. cbn in H. repeat (destruct H as [<-|H]; [reflexivity|]). contradiction. Qed.
Lemma horiz : forall k, In k [KLeft; KCenter; KRight] -> lookup (str (spelling k)) horizontals = Some k.
Proof. intros k H. cbn in H. repeat (destruct H as [<-|H]; [reflexivity|]). contradiction. Qed.
Lemma vert : forall k, In k [KTop; KMiddle; KBottom] -> lookup (str (spelling k)) verticals = Some k.
Proof. intros k H. cbn in H. repeat (destruct H as [<-|H]; [reflexivity|]). contradiction. Qed.

Theorem value_ok : forall d n t b k, value_text d n t b -> ending b k -> exists g r, k = g ++ r /\ gap g /\ parse_value n (t ++ k) = Ok (r, d).
Proof.
  intros d n t b k H K. pose proof (ending_sep b k K) as S. destruct H.
  - apply (same true); [exact K|]. eapply via; [apply disp_colour; eassumption|]. unfold of_colour.
    apply (pmap_ok _ _ _ (fun c => f (VColour c))). apply (colour_end c t true k); assumption.
  - apply (same true); [exact K|]. eapply via; [apply disp_scalar; eassumption|]. apply (pmap_ok _ _ _ (fun s => f (VScalar s))). apply scalar_ok; assumption.
  - apply (same true); [exact K|]. eapply via; [apply disp_spacing; eassumption|]. apply (pmap_ok _ _ _ f). apply (spacing_ok v t true k); assumption.
  - apply (same true); [exact K|]. eapply via; [apply disp_edge; eassumption|]. apply (pmap_ok _ _ _ f).
    apply (edge_ok v t true k); assumption.
  - apply (same true); [exact K|]. eapply disp_word; eassumption.
  - destruct (style_ok s t k H0 K) as [g [r [E [G P]]]]. exists g, r. split; [exact E|]. split; [exact G|].
    eapply via; [apply disp_style; eassumption|]. exact (pmap_ok _ _ _ (fun s => f (VStyle s)) _ _ _ P).
  - apply (same true); [exact K|]. destruct (disp_int n f H) as [L|L]; (eapply via; [exact L|]); apply (pmap_ok _ _ _ (fun z => f (VInt z))).
    + apply u16_ok; assumption.
    + apply u16_trim; assumption.
  - apply (same true); [exact K|]. eapply (via "opacity"); [reflexivity|]. apply (pmap_ok _ _ _ (fun q => DOpacity _ (VNumber q))). apply opacity_ok; assumption.
  - apply (same true); [exact K|]. eapply (via "text-opacity"); [reflexivity|]. apply (pmap_ok _ _ _ (fun q => DTextOpacity _ (VNumber q))). apply opacity_ok; assumption.
  - apply (same true); [exact K|]. eapply (via "overflow"); [reflexivity|].
    assert (P : parse_overflow_shorthand alnum lower (t ++ k) = Ok (k, (x, x))).
    { unfold parse_overflow_shorthand. rewrite (pbind_ok _ _ _ _ _ _ _ (word_ok _ _ _ x t k H0 (three x H) S)).
      rewrite (pbind_ok _ _ _ _ _ _ _ (opt_no1 _ _ true k K (word_bare _ _ true))). reflexivity. }
    exact (pmap_ok _ _ _ (fun '(x, y) => DOverflow value (VWord x) (VWord y)) _ _ _ P).
  - apply (same true); [exact K|]. eapply (via "overflow"); [reflexivity|].
    destruct (word2 _ _ overflows overflows _ _ x y t g u k H1 (three x H) H2 H3 H4 (three y H0) S) as [P1 [P2 P3]].
    assert (P : parse_overflow_shorthand alnum lower ((t ++ g ++ u) ++ k) = Ok (k, (x, y))).
    { unfold parse_overflow_shorthand. rewrite <- !app_assoc. rewrite (pbind_ok _ _ _ _ _ _ _ P1).
      rewrite (pbind_ok _ _ _ _ _ _ _ (popt_ok _ _ _ _ _ (eq_trans (pre_ok _ _ _ _ _ _ _ P2) P3))). reflexivity. }
    exact (pmap_ok _ _ _ (fun '(x, y) => DOverflow value (VWord x) (VWord y)) _ _ _ P).
  - apply (same true); [exact K|]. eapply (via "content-align"); [reflexivity|].
    destruct (word2 _ _ horizontals verticals _ _ h v t g u k H1 (horiz h H) H2 H3 H4 (vert v H0) S) as [P1 [P2 P3]].
    assert (P : parse_content_align alnum lower ((t ++ g ++ u) ++ k) = Ok (k, (h, v))).
    { unfold parse_content_align. rewrite <- !app_assoc. rewrite (pbind_ok _ _ _ _ _ _ _ P1). rewrite (pbind_ok _ _ _ _ _ _ _ P2). rewrite (pbind_ok _ _ _ _ _ _ _ P3). reflexivity. }
    exact (pmap_ok _ _ _ (fun '(x, y) => DContentAlign value (VWord x) (VWord y)) _ _ _ P).
  - apply (same true); [exact K|]. eapply (via "align"); [reflexivity|].
    destruct (word2 _ _ horizontals verticals _ _ h v t g u k H1 (horiz h H) H2 H3 H4 (vert v H0) S) as [P1 [P2 P3]].
    assert (P : parse_content_align alnum lower ((t ++ g ++ u) ++ k) = Ok (k, (h, v))).
    { unfold parse_content_align. rewrite <- !app_assoc. rewrite (pbind_ok _ _ _ _ _ _ _ P1). rewrite (pbind_ok _ _ _ _ _ _ _ P2). rewrite (pbind_ok _ _ _ _ _ _ _ P3). reflexivity. }
    exact (pmap_ok _ _ _ (fun '(x, y) => DAlign value (VWord x) (VWord y)) _ _ _ P).
  - apply (same true); [exact K|]. eapply (via "scrollbar-size"); [reflexivity|]. apply (pmap_ok _ _ _ (DScrollbarSize value)).
    unfold parse_scrollbar_size. rewrite (pbind_ok _ _ _ _ _ _ _ (u16_ok n t k H S)). rewrite (pbind_ok _ _ _ _ _ _ _ (opt_no1 _ _ true k K (u16_bare true))). reflexivity.
  - apply (same true); [exact K|]. eapply (via "scrollbar-size"); [reflexivity|]. apply (pmap_ok _ _ _ (DScrollbarSize value)).
    unfold parse_scrollbar_size. rewrite <- !app_assoc. rewrite (pbind_ok _ _ _ _ _ _ _ (u16_ok m t _ H (gap_sep g _ H0 H1))).
    assert (P : popt (preceded multispace1 plain_u16) (g ++ u ++ k) = Ok (k, Some n)).
    { apply popt_ok. assert (T : tough (u ++ k)) by (destruct (int_head n u H2) as [c [q [-> [_ T]]]]; exact T).
      rewrite (pre_ok _ _ _ _ _ _ _ (ms1 g (u ++ k) H0 H1 T)). apply u16_ok; assumption. }
    rewrite (pbind_ok _ _ _ _ _ _ _ P). reflexivity.
  - apply (same true); [exact K|]. eapply (via "grid-size"); [reflexivity|].
    assert (P : parse_grid_size (t ++ k) = Ok (k, (n, None))).
    { unfold parse_grid_size. rewrite (pbind_ok _ _ _ _ _ _ _ (u16_trim n t k H S)). rewrite (pbind_ok _ _ _ _ _ _ _ (opt_no1 _ _ true k K (u16_bare2 true))). reflexivity. }
    exact (pmap_ok _ _ _ (fun '(c, r) => DGridSize value (VInt c) (VOptInt r)) _ _ _ P).
  - apply (same true); [exact K|]. eapply (via "grid-size"); [reflexivity|].
    assert (P : parse_grid_size ((t ++ g ++ u) ++ k) = Ok (k, (m, Some n))).
    { unfold parse_grid_size. rewrite <- !app_assoc. rewrite (pbind_ok _ _ _ _ _ _ _ (u16_trim m t _ H (gap_sep g _ H0 H1))).
      assert (P : popt (preceded multispace1 parse_u16) (g ++ u ++ k) = Ok (k, Some n)).
      { apply popt_ok. assert (T : tough (u ++ k)) by (destruct (int_head n u H2) as [c [q [-> [_ T]]]]; exact T).
        rewrite (pre_ok _ _ _ _ _ _ _ (ms1 g (u ++ k) H0 H1 T)). apply u16_trim; assumption. }
      rewrite (pbind_ok _ _ _ _ _ _ _ P). reflexivity. }
    exact (pmap_ok _ _ _ (fun '(c, r) => DGridSize value (VInt c) (VOptInt r)) _ _ _ P).
  - apply (same true); [exact K|]. eapply (via "layout"); [reflexivity|]. apply (pmap_ok _ _ parse_layout (fun k => DLayout value (VWord k)) _ k k0).
    unfold parse_layout, trimmed. cbn in H. repeat (destruct H as [<-|H]; [rewrite trim_id by reflexivity|]); [| | |contradiction].
    + apply palt_ok. exact (pmap_ok _ _ _ (fun _ => KVertical) _ _ _ (tag_yes (str "vertical") k)).
    + rewrite palt_err by (apply pmap_err; reflexivity). apply palt_ok. exact (pmap_ok _ _ _ (fun _ => KHorizontal) _ _ _ (tag_yes (str "horizontal") k)).
    + rewrite palt_err by (apply pmap_err; reflexivity). rewrite palt_err by (apply pmap_err; reflexivity). exact (pmap_ok _ _ _ (fun _ => KGrid) _ _ _ (tag_yes (str "grid") k)).
  - apply (same true); [exact K|]. eapply (via "layer"); [reflexivity|]. apply (pmap_ok _ _ _ (fun n => DLayer value (VName n))). unfold parse_layer, trimmed.
    destruct (ident_head t H) as [c [q [E [W _]]]]. rewrite trim_id by (rewrite E; exact W).
    exact (pmap_ok _ _ _ lower _ _ _ (ident_ok alnum t k H (sep_stop k S))).
  - destruct (layers_ok l t k H K) as [g [r [E [G P]]]]. exists g, r. split; [exact E|]. split; [exact G|].
    eapply (via "layers"); [reflexivity|]. exact (pmap_ok _ _ _ (fun l => DLayers value (VNames l)) _ _ _ P).
  - apply (same true); [exact K|]. eapply (via "grid-columns"); [reflexivity|]. apply (pmap_ok _ _ _ (fun l => DGridColumns value (VScalars l))). apply (scalars_ok l t true k); assumption.
  - apply (same true); [exact K|]. eapply (via "grid-rows"); [reflexivity|]. apply (pmap_ok _ _ _ (fun l => DGridRows value (VScalars l))). apply (scalars_ok l t true k); assumption.
  - apply (same true); [exact K|]. eapply (via "grid-gutter"); [reflexivity|].
    assert (P : parse_grid_gutter rnd64 (t ++ k) = Ok (k, (s, None))).
    { unfold parse_grid_gutter. rewrite (pbind_ok _ _ _ _ _ _ _ (scalar_ok s t k H S)). rewrite (pbind_ok _ _ _ _ _ _ _ (opt_no1 _ _ true k K (scalar_bare true))). reflexivity. }
    exact (pmap_ok _ _ _ (fun '(v, h) => DGridGutter value (VScalar v) (option_map VScalar h)) _ _ _ P).
  - apply (same true); [exact K|]. eapply (via "grid-gutter"); [reflexivity|].
    assert (P : parse_grid_gutter rnd64 ((t ++ g ++ u) ++ k) = Ok (k, (v, Some h))).
    { unfold parse_grid_gutter. rewrite <- !app_assoc. rewrite (pbind_ok _ _ _ _ _ _ _ (scalar_ok v t _ H (gap_sep g _ H0 H1))).
      rewrite (pbind_ok _ _ _ _ _ _ _ (popt_ok _ _ _ _ _ (next1 h u g k H2 H0 H1 S))). reflexivity. }
    exact (pmap_ok _ _ _ (fun '(v, h) => DGridGutter value (VScalar v) (option_map VScalar h)) _ _ _ P).
  - apply (same true); [exact K|]. eapply (via "offset"); [reflexivity|].
    assert (P : parse_offset rnd64 ((t ++ g ++ u) ++ k) = Ok (k, (x, y))).
    { unfold parse_offset. rewrite <- !app_assoc. rewrite (pbind_ok _ _ _ _ _ _ _ (scalar_ok x t _ H (gap_sep g _ H0 H1))).
      rewrite (pbind_ok _ _ _ _ _ _ _ (next1 y u g k H2 H0 H1 S)). reflexivity. }
    exact (pmap_ok _ _ _ (fun '(x, y) => DOffset value (VScalar x) (VScalar y)) _ _ _ P).
  - destruct (hatch_ok v t true k H K) as [g [r [E [G P]]]]. exists g, r. split; [exact E|]. split; [exact G|].
    eapply (via "hatch"); [reflexivity|]. exact (pmap_ok _ _ _ (DHatch value) _ _ _ P).
  - apply (same true); [exact K|]. eapply (via "keyline"); [reflexivity|]. apply (pmap_ok _ _ _ (DKeyline value)).
    apply (keyline_ok s t g c u true k); assumption.
  - destruct (no_keyline_ok t k H K) as [g [r [E [G P]]]]. exists g, r. split; [exact E|]. split; [exact G|].
    eapply (via "keyline"); [reflexivity|]. exact (pmap_ok _ _ _ (DKeyline value) _ _ _ P).
Qed.

(** *** The texts of values have no opening brackets and no blank in front *)
Lemma ident_nobr : forall t, Forall (in_name alnum) t -> nobr t.
Proof. intros t F. eapply Forall_impl; [|exact F]. intros c H. split; (apply (name_ascii c _ H); (lia || reflexivity)). Qed.
Ltac lit := repeat (apply Forall_cons; [split; discriminate|]); apply Forall_nil.
Lemma number_nobr : forall q t, number_text q t -> nobr t.
Proof.
  intros q t H. destruct H as [t n N D|t f n N Nf D]; [exact (digits_nobr t n D)|]. apply digits_nobr in D. apply Forall_app in D. destruct D.
  apply nobr_app; [assumption|]. apply nobr_app; [lit|assumption].
Qed.
Lemma signed_nobr : forall q t, signed_text q t -> nobr t.
Proof. intros q t H. destruct H as [q t H|q t H]; [exact (number_nobr q t H)|]. apply nobr_app; [lit|exact (number_nobr q t H)]. Qed.
Lemma scalar_nobr : forall s t, scalar_text rnd64 s t -> nobr t.
Proof. intros s t H. destruct H as [|q t u H N]; [lit|]. apply nobr_app; [exact (signed_nobr q t H)|]. destruct u; lit. Qed.
Lemma int_nobr : forall n t, int_text n t -> nobr t. Proof. intros n t [_ [D _]]. exact (digits_nobr t n D). Qed.
Lemma plain_nobr : forall t, Forall plain t -> nobr t.
Proof. intros t F. eapply Forall_impl; [|exact F]. intros c [_ H]. cbn in H. split; lia. Qed.
Lemma token_nobr : forall t, token t -> nobr t.
Proof.
  intros t H. destruct H as [t N F|f a N F G]; [exact (plain_nobr t F)|]. apply nobr_app; [exact (plain_nobr f F)|]. apply nobr_app; [lit|]. apply nobr_app; [|lit].
  eapply Forall_impl; [|exact G]. intros c H. unfold argument in H. cbn in H. split; lia.
Qed.
Lemma base_nobr : forall c t, base_colour c t -> nobr t.
Proof. intros c t H. destruct H as [c t H _ _|n F]; [exact (token_nobr t H)|]. apply nobr_app; [lit|exact (plain_nobr n F)]. Qed.
Lemma colour_nobr : forall c t, colour_text c t -> nobr t.
Proof.
  intros c t H. destruct H as [c t H|c t g n q H G N Nn F Q]; [exact (base_nobr c t H)|].
  apply nobr_app; [exact (base_nobr c t H)|]. apply nobr_app; [exact (gap_nobr g G)|]. apply nobr_app; [|lit].
  eapply Forall_impl; [|exact F]. cbn beta. intros x X. lia.
Qed.
Lemma word_nobr : forall n t, word_text alnum lower n t -> nobr t. Proof. intros n t [[_ F] _]. exact (ident_nobr t F). Qed.
Lemma kind_nobr : forall b t, kind_text alnum lower b t -> nobr t. Proof. intros b t H. destruct (kind_ident b t H) as [_ F]. exact (ident_nobr t F). Qed.
Lemma words_nobr : forall l t, words_text l t -> nobr t.
Proof.
  assert (G : forall w, list_word w -> nobr w) by (intros w [_ F]; eapply Forall_impl; [|exact F]; intros c [_ X]; cbn in X; split; lia).
  intros l t H. induction H as [w W|w g l t W B N H IH]; [exact (G w W)|]. apply nobr_app; [exact (G w W)|]. apply nobr_app; [exact (blank_nobr g B)|exact IH].
Qed.
Create HintDb nb.
Hint Resolve nobr_app gap_nobr signed_nobr scalar_nobr int_nobr colour_nobr word_nobr kind_nobr words_nobr : nb.
Lemma value_nobr : forall d n t b, value_text d n t b -> nobr t.
Proof.
  intros d n t b H. destruct H; try solve [eauto 8 with nb].
  - destruct H0; repeat apply nobr_app; eauto with nb.
  - destruct H0; repeat apply nobr_app; eauto with nb.
  - destruct H0; [eauto with nb|]. apply nobr_app; [lit|]. eapply Forall_impl; [|exact H1]. intros c X. cbn in X. split; lia.
  - destruct H; [eauto with nb|apply nobr_app; [eauto with nb|lit]|]. apply nobr_app; [lit|exact (digits_nobr t n H0)].
  - destruct H; [eauto with nb|apply nobr_app; [eauto with nb|lit]|]. apply nobr_app; [lit|exact (digits_nobr t n H0)].
  - destruct k; lit.
  - destruct H as [_ F]. exact (ident_nobr t F).
  - induction H; eauto with nb.
  - induction H; eauto with nb.
  - assert (PN : forall p t, pattern_text alnum lower p t -> nobr t).
    { intros p1 t1 P. destruct P as [p1 n t1 P W|c0 q Q N0 N34 NP]; [eauto with nb|].
      cbn in N0. apply Forall_cons; [lia|]. apply Forall_cons; [lia|]. apply Forall_cons; [lia|]. apply Forall_nil. }
    assert (FN : forall n, Forall (fun x => 48 <= x <= 57 \/ x = 46) n -> nobr n) by (intros n F; eapply Forall_impl; [|exact F]; cbn beta; intros x X; lia).
    destruct H as [p t g c u P G N Hc|p t g c u g1 n q g2 m o P G N Hb G1 N1 Nn Fn Qn G2 Nm Fm Qm].
    + apply nobr_app; [exact (PN p t P)|eauto with nb].
    + repeat apply nobr_app; first [lit|exact (PN p t P)|apply gap_nobr; assumption|exact (base_nobr c u Hb)|apply FN; assumption].
Qed.
Definition solid_head (t : text) : Prop := exists c r, t = c :: r /\ is_ws c = false.
Lemma sh_app : forall t u, solid_head t -> solid_head (t ++ u).
Proof. intros t u [c [r [-> W]]]. eexists c, _. split; [reflexivity|exact W]. Qed.
Lemma sh_scalar : forall s t, scalar_text rnd64 s t -> solid_head t. Proof. intros s t H. destruct (scalar_head s t H) as [c [r [-> [W _]]]]. exists c, r. auto. Qed.
Lemma sh_int : forall s t, int_text s t -> solid_head t. Proof. intros s t H. destruct (int_head s t H) as [c [r [-> [W _]]]]. exists c, r. auto. Qed.
Lemma sh_signed : forall s t, signed_text s t -> solid_head t. Proof. intros s t H. destruct (signed_head s t H) as [c [r [-> W]]]. exists c, r. split; [reflexivity|]. exact (digit_ws c W). Qed.
Lemma sh_ident : forall t, ident alnum t -> solid_head t. Proof. intros t H. destruct (ident_head t H) as [c [r [-> [W _]]]]. exists c, r. auto. Qed.
Lemma sh_word : forall n t, word_text alnum lower n t -> solid_head t. Proof. intros n t [H _]. exact (sh_ident t H). Qed.
Lemma sh_kind : forall b t, kind_text alnum lower b t -> solid_head t. Proof. intros n t H. exact (sh_ident t (kind_ident n t H)). Qed.
Lemma sh_colour : forall c t, colour_text c t -> solid_head t. Proof. intros c t H. exact (colour_head c t H). Qed.
Lemma sh_words : forall l t, words_text l t -> solid_head t. Proof. intros l t H. destruct (words_tight l t H) as [N [T _]]. destruct t as [|c t]; [congruence|]. exists c, t. auto. Qed.
Hint Resolve sh_app sh_scalar sh_int sh_signed sh_ident sh_word sh_kind sh_colour sh_words : nb.
Lemma value_head : forall d n t b, value_text d n t b -> solid_head t.
Proof.
  intros d n t b H. destruct H; try solve [eauto 8 with nb].
  - destruct H0; eauto with nb.
  - destruct H0; eauto with nb.
  - destruct H0; [eauto with nb|]. eexists _, _. split; reflexivity.
  - destruct H; [eauto with nb|eauto with nb|]. eexists _, _. split; reflexivity.
  - destruct H; [eauto with nb|eauto with nb|]. eexists _, _. split; reflexivity.
  - destruct k; eexists _, _; split; reflexivity.
  - destruct H; eauto with nb.
  - destruct H; eauto with nb.
  - destruct H as [p t g c u P G N Hc|p t g c u g1 n q g2 m o P G N Hb G1 N1 Nn Fn Qn G2 Nm Fm Qm]; apply sh_app; destruct (pattern_head p t P) as [x [r [-> W]]]; exists x, r; auto.
Qed.

(** property names *)
Definition all_names : list string :=
  map fst (colour_properties C) ++ map fst (scalar_properties C) ++ map fst (spacing_properties C) ++ map fst (edge_properties C)
  ++ map (fun x => fst (fst x)) (word_properties C) ++ map fst (style_properties C) ++ map fst (int_properties C) ++ other_properties.
Lemma known_in : forall s, In s all_names -> known C (str s).
Proof. intros s H. exists s. split; [reflexivity|]. unfold all_names in H. rewrite !in_app_iff in H. exact H. Qed.
Lemma value_name : forall d n t b, value_text d n t b -> exists s, n = str s /\ In s all_names.
Proof.
  assert (G : forall T (l : list (string * T)) n f, In (n, f) l -> In n (map fst l)) by (intros T l n f H; apply in_map_iff; exists (n, f); auto).
  intros d n t b H. destruct H; eexists; (split; [reflexivity|]); unfold all_names; rewrite !in_app_iff;
    try solve [do 7 right; cbn; tauto].
  - left. eauto.
  - right. left. eauto.
  - do 2 right. left. eauto.
  - do 3 right. left. eauto.
  - do 4 right. left. apply in_map_iff. exists (n, ks, f). auto.
  - do 5 right. left. eauto.
  - do 6 right. left. eauto.
Qed.
Lemma names_ok : forallb (fun s => negb (is_nil (str s)) && forallb (fun c => ascii_alnum c || (c =? 45)) (str s)) all_names = true.
Proof. reflexivity. Qed.
Lemma name_ident : forall s, In s all_names -> ident alnum (str s).
Proof.
  intros s H. pose proof (proj1 (forallb_forall _ _) names_ok s H) as X. apply andb_true_iff in X. destruct X as [X1 X2]. split.
  - intro E. rewrite E in X1. discriminate.
  - apply Forall_forall. intros c I. pose proof (proj1 (forallb_forall _ _) X2 c I) as Y. apply orb_true_iff in Y. destruct Y as [Y|Y].
    + left. destruct A as [A1 _]. rewrite A1; [exact Y|]. unfold ascii_alnum in Y. rewrite !orb_true_iff, !andb_true_iff, !Z.leb_le in Y. lia.
    + right. left. apply Z.eqb_eq. exact Y.
Qed.
Lemma lookup_known : forall n p, lookup n properties = Some p -> known C n.
Proof.
  intros n p H. apply lookup_in in H. destruct H as [s [I ->]]. apply known_in.
  assert (G : forallb (fun s => existsb (String.eqb s) all_names) (map fst properties) = true) by reflexivity.
  assert (J : In s (map fst properties)) by (apply in_map_iff; exists (s, p); auto).
  pose proof (proj1 (forallb_forall _ _) G s J) as X. apply existsb_exists in X. destruct X as [y [Y E]]. apply String.eqb_eq in E. subst. exact Y.
Qed.

(** *** Declarations *)
Lemma gap_prefix : forall g r gg x, gap g -> g ++ r = gg ++ x -> gap gg -> tough x -> x <> [] -> exists g', gap g' /\ r = g' ++ x.
Proof.
  induction g as [|c g IH]; intros r gg x G E GG T N.
  - exists gg. auto.
  - inversion G; subst. destruct gg as [|c' gg].
    + cbn in E. destruct x as [|y x]; [congruence|]. injection E as <- _. cbn in T. exfalso. destruct H1 as [-> |[-> |[-> | ->]]]; discriminate.
    + cbn in E. injection E as -> E. inversion GG; subst. exact (IH r gg x H2 E H4 T N).
Qed.
Lemma end_plain : forall (d : declaration) g x r, gap g -> over x -> end_declaration C d (g ++ x :: r) = Ok ((if x =? 59 then r else x :: r), d).
Proof.
  intros d g x r G D. unfold end_declaration. assert (T : tough (x :: r)) by (destruct D as [-> | ->]; reflexivity).
  assert (P : popt (preceded multispace0 (tag (str "!important"))) (g ++ x :: r) = Ok (g ++ x :: r, None)).
  { apply popt_err. rewrite (pre_ok _ _ _ _ _ _ _ (ms0 g (x :: r) G T)). destruct D as [-> | ->]; reflexivity. }
  rewrite (pbind_ok _ _ _ _ _ _ _ P). rewrite (pbind_ok _ _ _ _ _ _ _ (ms0 g (x :: r) G T)). destruct D as [-> | ->]; reflexivity.
Qed.
Lemma end_important : forall (d : declaration) g0 g x r, gap g0 -> gap g -> over x ->
  end_declaration C d (g0 ++ str "!important" ++ g ++ x :: r) = Ok ((if x =? 59 then r else x :: r), d).
Proof.
  intros d g0 g x r G0 G D. unfold end_declaration. assert (T : tough (x :: r)) by (destruct D as [-> | ->]; reflexivity).
  assert (P : popt (preceded multispace0 (tag (str "!important"))) (g0 ++ str "!important" ++ g ++ x :: r) = Ok (g ++ x :: r, Some tt)).
  { apply popt_ok. rewrite (pre_ok _ _ _ _ _ _ _ (ms0 g0 (str "!important" ++ g ++ x :: r) G0 eq_refl)). apply tag_yes. }
  rewrite (pbind_ok _ _ _ _ _ _ _ P). rewrite (pbind_ok _ _ _ _ _ _ _ (ms0 g (x :: r) G T)). destruct D as [-> | ->]; reflexivity.
Qed.
Lemma name_not_selector : forall n r, ident alnum n -> match n ++ r with c :: _ => (c =? 38) || (c =? 46) || (c =? 35) | [] => false end = false.
Proof.
  intros n r [N F]. destruct n as [|c n]; [congruence|]. inversion F; subst. cbn.
  rewrite !orb_false_iff, !Z.eqb_neq. repeat split; (apply (name_ascii c _ H1); (lia || reflexivity)).
Qed.
Lemma colon_stop : forall g r, gap g -> stop alnum (g ++ 58 :: r).
Proof.
  intros g r G. destruct g as [|c g]; cbn.
  - apply (not_name alnum A); (lia || reflexivity).
  - inversion G; subst. destruct H1 as [-> |[-> |[-> | ->]]]; apply (not_name alnum A); (lia || reflexivity).
Qed.
Lemma before_value : forall n g g1 r, ident alnum n -> gap g -> gap g1 ->
  parse_single_declaration (g ++ n ++ g1 ++ 58 :: r) = pbind multispace0 (fun _ => pbind (parse_value n) (end_declaration C)) r.
Proof.
  intros n g g1 r I G G1. unfold Sheet_Model.parse_single_declaration.
  rewrite (pre_ok _ _ _ _ _ _ _ (ms0 g (n ++ g1 ++ 58 :: r) G (ident_tough n _ I))).
  rewrite (name_not_selector n _ I). rewrite (pbind_ok _ _ _ _ _ _ _ (ident_ok alnum n _ I (colon_stop g1 r G1))).
  rewrite (pbind_ok _ _ _ _ _ _ _ (ms0 g1 (58 :: r) G1 eq_refl)). rewrite (pbind_ok _ _ _ _ _ _ _ (pchar_yes 58 r)). reflexivity.
Qed.
Lemma decl_ok : forall d t, declaration_text d t -> forall g g3 x r, gap g -> gap g3 -> over x ->
  parse_single_declaration (g ++ t ++ g3 ++ x :: r) = Ok ((if x =? 59 then r else x :: r), d).
Proof.
  intros d t H g g3 x r G G3 X. destruct H as [d n v b g1 g2 i g4 V G1 G2 I G4].
  destruct (value_name d n v b V) as [s [En In]]. assert (Id : ident alnum n) by (subst n; exact (name_ident s In)).
  rewrite <- !app_assoc. change (str ":" ++ ?y) with (58 :: y). rewrite (before_value n g g1 _ Id G G1).
  destruct (value_head d n v b V) as [c [q [Ev Wv]]].
  assert (T : tough (v ++ i ++ g4 ++ g3 ++ x :: r)) by (rewrite Ev; cbn; exact (ws_space c Wv)).
  rewrite (pbind_ok _ _ _ _ _ _ _ (ms0 g2 _ G2 T)).
  assert (GG : gap (g4 ++ g3)) by (apply gap_app; assumption).
  assert (K : ending b (i ++ g4 ++ g3 ++ x :: r)).
  { rewrite (app_assoc g4 g3). destruct I as [b|gi Gi Ni]; [apply en_stop; assumption|rewrite <- app_assoc; apply en_important; assumption]. }
  destruct (value_ok d n v b _ V K) as [gw [rr [E [Gw P]]]]. rewrite (pbind_ok _ _ _ _ _ _ _ P).
  rewrite (app_assoc g4 g3) in E. assert (Tx : tough (x :: r)) by (destruct X as [-> | ->]; reflexivity).
  destruct I as [b|gi Gi Ni].
  - cbn [app] in E. destruct (gap_prefix gw rr (g4 ++ g3) (x :: r) Gw (eq_sym E) GG Tx ltac:(discriminate)) as [g' [G' ->]]. apply end_plain; assumption.
  - rewrite <- app_assoc in E.
    destruct (gap_prefix gw rr gi (str "!important" ++ (g4 ++ g3) ++ x :: r) Gw (eq_sym E) Gi eq_refl ltac:(discriminate)) as [g' [G' ->]].
    apply end_important; assumption.
Qed.
Lemma decl_nobr : forall d t, declaration_text d t -> nobr t.
Proof.
  intros d t H. destruct H as [d n v b g1 g2 i g4 V G1 G2 I G4].
  destruct (value_name d n v b V) as [s [En In]]. assert (Id : ident alnum n) by (subst n; exact (name_ident s In)).
  apply nobr_app; [exact (ident_nobr n (proj2 Id))|]. apply nobr_app; [exact (gap_nobr g1 G1)|]. apply nobr_app; [lit|].
  apply nobr_app; [exact (gap_nobr g2 G2)|]. apply nobr_app; [exact (value_nobr d n v b V)|]. apply nobr_app; [|exact (gap_nobr g4 G4)].
  destruct I as [b|gi Gi Ni]; [apply Forall_nil|]. apply nobr_app; [exact (gap_nobr gi Gi)|lit].
Qed.
Lemma unknown_ok : forall n t g r, unknown_text alnum C n t -> gap g -> parse_single_declaration (g ++ t ++ 59 :: r) = Ok (r, DUnknown _ n).
Proof.
  intros n t g r [I [NK [g1 [g2 [v [G1 [G2 [F ->]]]]]]]] G. rewrite <- !app_assoc. change (str ":" ++ ?y) with (58 :: y). rewrite (before_value n g g1 _ I G G1).
  assert (N59 : ~ In 59 (g2 ++ v)).
  { rewrite in_app_iff. intros [J|J].
    - apply (proj1 (Forall_forall _ _) G2) in J. lia.
    - apply (proj1 (Forall_forall _ _) F) in J. apply J. cbn. tauto. }
  rewrite app_assoc. pose proof (span_join space ((g2 ++ v) ++ 59 :: r)) as J.
  assert (S : exists v', snd (span space ((g2 ++ v) ++ 59 :: r)) = v' ++ 59 :: r /\ ~ In 59 v').
  { clear J. generalize dependent (g2 ++ v). intros y N. induction y as [|c y IH]; cbn [app span].
    - exists []. auto.
    - destruct (space c).
      + destruct IH as [v' [E N']]; [intro; apply N; right; assumption|]. destruct (span space (y ++ 59 :: r)). cbn in *. exists v'. auto.
      + exists (c :: y). auto. }
  destruct S as [v' [E N']]. assert (M : multispace0 ((g2 ++ v) ++ 59 :: r) = Ok (v' ++ 59 :: r, fst (span space ((g2 ++ v) ++ 59 :: r)))).
  { unfold multispace0. destruct (span space ((g2 ++ v) ++ 59 :: r)). cbn in E. subst. reflexivity. }
  rewrite (pbind_ok _ _ _ _ _ _ _ M).
  assert (P : parse_value n (v' ++ 59 :: r) = Ok (59 :: r, DUnknown _ n)).
  { unfold Sheet_Model.parse_value. destruct (lookup n properties) as [p|] eqn:L; [exfalso; apply NK; exact (lookup_known n p L)|].
    apply (pmap_ok _ _ _ (fun _ => DUnknown _ n) _ _ v'). unfold take_until_semicolon_or_brace. apply palt_ok. unfold take_until. rewrite split_first by exact N'. reflexivity. }
  rewrite (pbind_ok _ _ _ _ _ _ _ P). exact (end_plain _ [] 59 r (Forall_nil _) (or_introl eq_refl)).
Qed.
Lemma unknown_nobr : forall n t, unknown_text alnum C n t -> nobr t.
Proof.
  intros n t [I [NK [g1 [g2 [v [G1 [G2 [F ->]]]]]]]]. apply nobr_app; [exact (ident_nobr n (proj2 I))|]. apply nobr_app; [exact (gap_nobr g1 G1)|]. apply nobr_app; [lit|].
  apply nobr_app; [exact (gap_nobr g2 G2)|]. eapply Forall_impl; [|exact F]. intros c X. cbn in X. split; lia.
Qed.

(** *** No rule starts where a declaration does *)
Lemma conf_ident : conf (parse_ident alnum).
Proof. apply conf_tw1; apply not_nc; apply (not_name alnum A); (lia || reflexivity). Qed.
Lemma conf_simple : conf (parse_simple_selector alnum).
Proof.
  unfold parse_simple_selector.
  apply conf_alt; [apply conf_map; apply conf_pre; [apply conf_char; lia|exact conf_ident]|].
  apply conf_alt; [apply conf_map; apply conf_pre; [apply conf_char; lia|exact conf_ident]|].
  apply conf_alt; [apply conf_map; apply conf_pre; [apply conf_char; lia|exact conf_ident]|].
  apply conf_alt; [apply conf_map; apply conf_char; lia|]. apply conf_alt; [apply conf_map; apply conf_char; lia|].
  apply conf_alt; [|apply conf_map; exact conf_ident].
  intros v d k V D. unfold parse_attribute_selector. rewrite pbind_err; [exact I|]. apply clean_not; [cbn; tauto|exact V|exact D].
Qed.
Lemma conf_compound : conf (parse_compound_selector alnum).
Proof. unfold parse_compound_selector. apply conf_bind; [exact conf_simple|]. intro. apply conf_bind; [apply conf_many; exact conf_simple|]. intro. apply conf_ret. Qed.
Lemma conf_comb : conf parse_combinator.
Proof. unfold parse_combinator. apply conf_alt; [apply conf_map; apply conf_char; lia|]. apply conf_alt; apply conf_map; apply conf_char; lia. Qed.
Lemma conf_go : forall n cur, conf (complex_go alnum n cur).
Proof.
  induction n as [|n IH]; intros cur v d k V D; [exact I|]. cbn [complex_go].
  assert (ST : exists v', v ++ d :: k = v' ++ d :: k /\ clean v') by (exists v; auto).
  assert (SD : space d = false) by (destruct D as [-> | ->]; reflexivity).
  assert (GO : forall comb v1, clean v1 -> match (match parse_compound_selector alnum (v1 ++ d :: k) with
      | Ok (next, kk) => match complex_go alnum n kk next with Ok (r', parts) => Ok (r', (cur, comb) :: parts) | Err => Err | Panic => Panic end
      | Err => Ok (v ++ d :: k, [(cur, CNone)]) | Panic => Panic end) with Ok (r, _) => exists v', r = v' ++ d :: k /\ clean v' | Err => True | Panic => False end).
  { intros comb v1 V1. pose proof (conf_compound v1 d k V1 D) as P. destruct (parse_compound_selector alnum (v1 ++ d :: k)) as [[next kk]| |]; [|exact ST|exact P].
    destruct P as [v2 [-> V2]]. specialize (IH kk v2 d k V2 D). destruct (complex_go alnum n kk (v2 ++ d :: k)) as [[r' parts]| |]; auto. }
  destruct (span_conf space v d k V SD) as [v1 [E V1]]. destruct (span space (v ++ d :: k)) as [ws rem]. cbn [snd] in E. subst rem.
  pose proof (conf_comb v1 d k V1 D) as PC. destruct (parse_combinator (v1 ++ d :: k)) as [[after_op comb]| |]; [| |exact PC].
  - destruct PC as [v2 [-> V2]]. destruct (span_conf space v2 d k V2 SD) as [v3 [E3 V3]]. rewrite E3. exact (GO comb v3 V3).
  - destruct (is_nil ws); [exact ST|]. exact (GO CDescendant v1 V1).
Qed.
Lemma conf_complex : conf (parse_complex_selector alnum).
Proof.
  intros v d k V D. unfold parse_complex_selector, pbind. pose proof (conf_compound v d k V D) as P.
  destruct (parse_compound_selector alnum (v ++ d :: k)) as [[r a]| |]; auto. destruct P as [v' [-> V']]. exact (conf_go _ a v' d k V' D).
Qed.
Lemma conf_list : conf (parse_selector_list alnum).
Proof.
  unfold parse_selector_list. apply conf_pre; [exact conf_ms0|]. apply conf_bind; [exact conf_complex|]. intro. apply conf_bind; [|intro; apply conf_ret].
  apply conf_many. apply conf_pre; [|exact conf_complex]. apply conf_pre; [exact conf_ms0|]. apply conf_pre; [apply conf_char; lia|exact conf_ms0].
Qed.
Lemma no_rule : forall n v d k, clean v -> over d -> parse_rule n (v ++ d :: k) = Err.
Proof.
  intros [|n] v d k V D; [reflexivity|]. cbn [Sheet_Model.parse_rule]. unfold preceded at 1, pbind at 1.
  pose proof (conf_ms0 v d k V D) as P. destruct (multispace0 (v ++ d :: k)) as [[r0 a0]| |]; [|reflexivity|contradiction]. destruct P as [v0 [-> V0]].
  unfold pbind at 1. pose proof (conf_list v0 d k V0 D) as P. destruct (parse_selector_list alnum (v0 ++ d :: k)) as [[r1 a1]| |]; [|reflexivity|contradiction]. destruct P as [v1 [-> V1]].
  unfold pbind at 1. pose proof (conf_ms0 v1 d k V1 D) as P. destruct (multispace0 (v1 ++ d :: k)) as [[r2 a2]| |]; [|reflexivity|contradiction]. destruct P as [v2 [-> V2]].
  apply pbind_err. apply clean_not; [cbn; tauto|exact V2|exact D].
Qed.
Lemma no_rule_nobr : forall n x d r, nobr x -> over d -> parse_rule n (x ++ d :: r) = Err.
Proof. intros n x d r N D. destruct (first_over x d r N D) as [v [d' [k [-> [V D']]]]]. exact (no_rule n v d' k V D'). Qed.

(** *** Rules *)
Notation item_parser n := (palt (pmap (parse_rule n) (INested value)) (pmap parse_single_declaration (IDecl value))).
Lemma item_decl : forall n d t g g3 x r, declaration_text d t -> gap g -> gap g3 -> over x ->
  item_parser n (g ++ t ++ g3 ++ x :: r) = Ok ((if x =? 59 then r else x :: r), IDecl value d).
Proof.
  intros n d t g g3 x r H G G3 X. rewrite palt_err.
  - exact (pmap_ok _ _ _ (IDecl value) _ _ _ (decl_ok d t H g g3 x r G G3 X)).
  - apply pmap_err. replace (g ++ t ++ g3 ++ x :: r) with ((g ++ t ++ g3) ++ x :: r) by (rewrite <- !app_assoc; reflexivity).
    apply no_rule_nobr; [|exact X]. apply nobr_app; [exact (gap_nobr g G)|]. apply nobr_app; [exact (decl_nobr d t H)|exact (gap_nobr g3 G3)].
Qed.
Lemma item_none : forall n g k, gap g -> item_parser n (g ++ 125 :: k) = Err.
Proof.
  intros n g k G. rewrite palt_err by (apply pmap_err; apply no_rule; [exact (gap_clean g G)|right; reflexivity]).
  apply pmap_err. unfold Sheet_Model.parse_single_declaration. rewrite (pre_ok _ _ _ _ _ _ _ (ms0 g (125 :: k) G eq_refl)).
  apply pbind_err. apply ident_no. apply (not_name alnum A); (lia || reflexivity).
Qed.
Scheme rule_ind2 := Induction for Sheet_Spec.rule_text Sort Prop
  with body_ind2 := Induction for Sheet_Spec.body_text Sort Prop.
Theorem rule_ok : forall r t, rule_text r t -> forall n k, (length t <= n)%nat -> parse_rule n (t ++ k) = Ok (k, r).
Proof.
  apply (rule_ind2 alnum lower rnd rnd64 parse_f32 parse_f64 C colour with_alpha theme_colour transparent
    (fun r t _ => forall n k, (length t <= n)%nat -> parse_rule n (t ++ k) = Ok (k, r))
    (fun l b _ => forall n g2 k, (length b <= n)%nat -> gap g2 ->
       exists g', gap g' /\ many0 (item_parser n) (b ++ g2 ++ 125 :: k) = Ok (g' ++ 125 :: k, l))).
  - intros sels items g0 s g1 b g2 G0 S G1 B IH G2 n k L. destruct n as [|n].
    { rewrite !app_length in L. cbn in L. lia. }
    rewrite <- !app_assoc. change (str "{" ++ ?y) with (123 :: y). change (str "}" ++ ?y) with (125 :: y). cbn [Sheet_Model.parse_rule].
    destruct (selectors_open sels s S) as [c [q [Es O]]]. destruct (opener_facts c O) as [F _].
    rewrite (pre_ok _ _ _ _ _ _ _ (ms0 g0 (s ++ _) G0 ltac:(rewrite Es; exact F))).
    assert (P : parse_selector_list alnum (s ++ g1 ++ 123 :: b ++ g2 ++ 125 :: k) = Ok (g1 ++ 123 :: b ++ g2 ++ 125 :: k, sels)).
    { apply (selectors_ok alnum A sels s [] _ S (Forall_nil _)). eexists g1, _. split; [reflexivity|exact G1]. }
    rewrite (pbind_ok _ _ _ _ _ _ _ P). rewrite (pbind_ok _ _ _ _ _ _ _ (ms0 g1 (123 :: _) G1 eq_refl)). rewrite (pbind_ok _ _ _ _ _ _ _ (pchar_yes 123 _)).
    destruct (IH n g2 k) as [g' [G' M]]; [rewrite !app_length in L; cbn in L; lia|exact G2|].
    rewrite (pbind_ok _ _ _ _ _ _ _ M).
    assert (E : preceded multispace0 (pchar 125) (g' ++ 125 :: k) = Ok (k, tt)) by (rewrite (pre_ok _ _ _ _ _ _ _ (ms0 g' (125 :: k) G' eq_refl)); apply pchar_yes).
    rewrite (pbind_ok _ _ _ _ _ _ _ E). reflexivity.
  - intros n g2 k L G2. exists g2. split; [exact G2|]. apply many0_nil. exact (item_none n g2 k G2).
  - intros d g t G D n g2 k L G2. exists []. split; [apply Forall_nil|]. rewrite <- app_assoc.
    eapply many0_cons; [exact (item_decl n d t g g2 125 k D G G2 (or_intror eq_refl))| |apply many0_nil; exact (item_none n [] k (Forall_nil _))].
    change (125 =? 59) with false. cbv iota. destruct D as [d n0 v b g1 g3 i g4 V _ _ _ _]. destruct (value_head d n0 v b V) as [c [q [Ev _]]].
    rewrite Ev. rewrite !app_length. cbn. lia.
  - intros d g t l u G D B IH n g2 k L G2. destruct (IH n g2 k) as [g' [G' M]]; [rewrite !app_length in L; lia|exact G2|]. exists g'. split; [exact G'|].
    rewrite <- !app_assoc. change (str ";" ++ ?y) with (59 :: y).
    eapply many0_cons; [exact (item_decl n d t g [] 59 (u ++ g2 ++ 125 :: k) D G (Forall_nil _) (or_introl eq_refl))| |exact M].
    change (59 =? 59) with true. cbv iota. rewrite !app_length. cbn. rewrite !app_length. cbn. lia.
  - intros nm g t l u G D B IH n g2 k L G2. destruct (IH n g2 k) as [g' [G' M]]; [rewrite !app_length in L; lia|exact G2|]. exists g'. split; [exact G'|].
    rewrite <- !app_assoc. change (str ";" ++ ?y) with (59 :: y).
    assert (P : item_parser n (g ++ t ++ 59 :: u ++ g2 ++ 125 :: k) = Ok (u ++ g2 ++ 125 :: k, IDecl value (DUnknown _ nm))).
    { rewrite palt_err; [exact (pmap_ok _ _ _ (IDecl value) _ _ _ (unknown_ok nm t g _ D G))|]. apply pmap_err. rewrite app_assoc.
      apply no_rule_nobr; [|left; reflexivity]. apply nobr_app; [exact (gap_nobr g G)|exact (unknown_nobr nm t D)]. }
    eapply many0_cons; [exact P| |exact M]. rewrite !app_length. cbn. rewrite !app_length. cbn. lia.
  - intros r t l u R IHr B IH n g2 k L G2. rewrite app_length in L. destruct (IH n g2 k) as [g' [G' M]]; [lia|exact G2|]. exists g'. split; [exact G'|].
    rewrite <- !app_assoc. eapply many0_cons; [apply palt_ok; exact (pmap_ok _ _ _ (INested value) _ _ _ (IHr n (u ++ g2 ++ 125 :: k) ltac:(lia)))| |exact M].
    assert (N : t <> []).
    { destruct R as [sels items g0 s g1 b g3 G0 S G1 B' G3]. destruct (selectors_open sels s S) as [c [q [-> _]]]. destruct g0; discriminate. }
    destruct t; [congruence|]. cbn. rewrite !app_length. lia.
Qed.
Lemma sheet_many : forall l t, sheet_text l t -> forall n, (length t <= n)%nat -> exists g, gap g /\ many0 (parse_rule n) t = Ok (g, l).
Proof.
  intros l t H. induction H as [g G|r t l u R H IH]; intros n L.
  - exists g. split; [exact G|]. apply many0_nil. destruct n as [|n]; [reflexivity|]. cbn [Sheet_Model.parse_rule].
    assert (M : multispace0 g = Ok ([], g)) by (pose proof (ms0 g [] G I) as M; rewrite app_nil_r in M; exact M).
    rewrite (pre_ok _ _ _ _ _ _ _ M). reflexivity.
  - rewrite app_length in L. destruct (IH n ltac:(lia)) as [g [G M]]. exists g. split; [exact G|].
    eapply many0_cons; [exact (rule_ok r t R n u ltac:(lia))| |exact M].
    assert (N : t <> []).
    { destruct R as [sels items g0 s g1 b g3 G0 S G1 B' G3]. destruct (selectors_open sels s S) as [c [q [-> _]]]. destruct g0; discriminate. }
    destruct t; [congruence|]. cbn. rewrite app_length. lia.
Qed.
Theorem sheet_ok : forall l t, sheet_text l t -> parse_rules t = Ok l.
Proof.
  intros l t H. unfold Sheet_Model.parse_rules. destruct (sheet_many l t H (S (length t)) ltac:(lia)) as [g [G ->]].
  assert (E : trim g = []).
  { pose proof (trim_app_l g [] (gap_blank g G)) as E. rewrite app_nil_r in E. exact E. }
  rewrite E. reflexivity.
Qed.
End Rules.
