(** C117: the default styles of widgets and the stylesheet of the program. *)
From Coq Require Import String ZArith QArith List Bool Arith Sorted Permutation Lia.
From Verif Require Import Text_Model Css_Model Css_Spec Css_Proofs Nest_Proofs Cascade_Spec Css_Props Cascade_Props Variables_Spec Sheet_Model Sheet_Spec Sheet2_Model
  Colour_Model Colour_Spec Sheet3_Proofs Sheet_Props Styled_Model Styled_Spec Styled_Proofs Styled_Props Name_Model Default_Model Default_Spec Default_Proofs.
Import ListNotations.
Local Open Scope nat_scope.
Local Open Scope list_scope.

(** The set has the default styles of all widgets the style resolver reaches, each
    once, and nothing else. *)
Theorem C117_collected : forall own root, NoDup (collected own root) /\
  forall d, In d (collected own root) <-> exists w, within root w /\ default_css own w = d /\ d <> [].
Proof.
  intros own root. destruct (collect_ok own (size root) root (le_n _) []) as [N M]. split; [apply N; constructor|]. intros d. unfold collected. rewrite M. unfold carried. cbn. tauto.
Qed.
Print Assumptions C117_collected.

Section Reading.
Variable alnum : char -> bool.      (* char::is_alphanumeric *)
Variable lc : char -> text.         (* char::to_lowercase *)
Variables rnd rnd64 : Q -> Q.       (* rounding to f32 and f64 *)
Variables parse_f32 parse_f64 : text -> option Q.  (* str::parse *)
Hypothesis A : alnum_like alnum.
Hypothesis L : lower_ok lc.
Notation sheet_text := (Sheet_Spec.sheet_text alnum (Colour_Model.lower lc) rnd rnd64 parse_f32 parse_f64 rgba (Colour_Model.parse rnd lc parse_f32) with_alpha theme_variable (rgba_of 0 0 0 0%Q)).
Notation stylesheet := (stylesheet alnum lc rnd rnd64 parse_f32 parse_f64).
Notation spells := (spells alnum lc rnd rnd64 parse_f32 parse_f64).
Variables (theme_color theme_edge theme_style theme_hatch theme_keyline auto_flag : V -> V) (v_true : V) (merge : V -> V -> V).
Notation style_of := (style_of theme_color theme_edge theme_style theme_hatch theme_keyline auto_flag v_true merge).
Notation gives := (gives theme_color theme_edge theme_style theme_hatch theme_keyline auto_flag v_true top right bottom left horizontal vertical).

(** The text [src] with lines [ls] is a sheet of the rules [l] where the variables are
    those defined in [env]; [closed_sheet] if moreover its comments are closed. *)
Definition open_sheet (env : list line) (src : text) (ls : list line) (l : list (rule V)) : Prop :=
  exists t o, strips src t /\ source alnum ls t /\ means env ls o /\ sheet_text l o.
Definition closed_sheet (env : list line) (src : text) (ls : list line) (l : list (rule V)) : Prop :=
  exists t o, uncommented src t /\ source alnum ls t /\ means env ls o /\ sheet_text l o.
(** The texts put together, each read on its own: [pre] the fixed ones (the base
    styles, or none), those of the widgets, [css] the program's.  [LL] and [R] give
    the lines and the rules of a text.  Variables are defined by the fixed texts
    and the program, not by widgets. *)
Definition described (own : text -> text) (pre : list text) (root : widget) (css : text) (LL : text -> list line) (R : text -> list (rule V)) : Prop :=
  let env := flat_map LL pre ++ LL css in
  (forall d, In d pre \/ In d (collected own root) -> closed_sheet env d (LL d) (R d) /\ readable (R d)) /\
  open_sheet env css (LL css) (R css) /\ readable (R css) /\
  (forall d, In d (collected own root) -> silent (LL d)).

Lemma pieces env LL R css : open_sheet env css (LL css) (R css) -> forall ds, (forall d, In d ds -> closed_sheet env d (LL d) (R d)) ->
  exists t ls o, strips (flat_map (fun d => d ++ [10%Z]) ds ++ css) t /\ source alnum ls t /\ means env ls o /\ sheet_text (flat_map R ds ++ R css) o /\ padded (flat_map LL ds ++ LL css) ls.
Proof.
  intros (t & o & S1 & S2 & S3 & S4). induction ds as [|d ds IH]; intros H.
  - exists t, (LL css), o. cbn. auto using padded_refl.
  - destruct IH as (t2 & ls2 & o2 & U1 & U2 & U3 & U4 & U5); [intros; apply H; right; assumption|]. destruct (H d (or_introl eq_refl)) as (t1 & o1 & V1 & V2 & V3 & V4).
    destruct (source_app alnum _ _ _ _ V2 U2) as (pad & PP & SO). exists (t1 ++ 10%Z :: t2).
    assert (ST : strips (flat_map (fun d => d ++ [10%Z]) (d :: ds) ++ css) (t1 ++ 10%Z :: t2)).
    { cbn. rewrite <- !app_assoc. cbn. apply uncommented_strips; [exact V1|exact U1]. }
    assert (PD : padded (flat_map LL (d :: ds) ++ LL css) (LL d ++ pad ++ ls2)).
    { cbn. rewrite <- app_assoc. apply padded_app; [apply padded_refl|]. destruct PP as [-> | ->]; cbn; [exact U5|constructor; exact U5]. }
    assert (SH : sheet_text (flat_map R (d :: ds) ++ R css) (o1 ++ (if pad then [] else [10%Z]) ++ o2)).
    { cbn. rewrite <- app_assoc. apply sheet_app; [exact V4|]. apply sheet_gap; [|exact U4]. destruct pad; [constructor|constructor; [auto|constructor]]. }
    exists (LL d ++ pad ++ ls2), (o1 ++ (if pad then [] else [10%Z]) ++ o2). split; [exact ST|]. split; [exact SO|]. split; [|split; assumption].
    apply means_app; [exact V3|]. apply means_app; [|exact U3]. destruct PP as [-> | ->]; [constructor|]. apply (m_code env [] [] [] []); constructor.
Qed.
Lemma silent_middle (LL : text -> list line) (order pre0 : list text) (tail : list line) : (forall d, In d order -> silent (LL d)) -> padded (flat_map LL pre0 ++ tail) (flat_map LL (pre0 ++ order) ++ tail).
Proof.
  intros H. rewrite flat_map_app, <- app_assoc. apply padded_app; [apply padded_refl|]. induction order as [|d order IH]; cbn; [apply padded_refl|]. rewrite <- app_assoc.
  apply padded_silent; [apply H; left; reflexivity|]. apply IH. intros x X. apply H. right. exact X.
Qed.
Lemma spelled_together own pre root css LL R order : described own pre root css LL R -> Permutation order (collected own root) ->
  spells (combined pre order css) (concat (sheets R pre css order)) /\ readable (concat (sheets R pre css order)).
Proof.
  intros (D & O & RO & S) P. assert (I : forall d, In d (pre ++ order) -> closed_sheet (flat_map LL pre ++ LL css) d (LL d) (R d) /\ readable (R d)).
  { intros d H. apply D. apply in_app_or in H. destruct H as [H|H]; [auto|]. right. apply (Permutation_in _ P). exact H. }
  assert (E : concat (sheets R pre css order) = flat_map R (pre ++ order) ++ R css).
  { unfold sheets. rewrite app_assoc, map_app, concat_app, flat_map_concat_map. cbn. rewrite app_nil_r. reflexivity. }
  rewrite E. split.
  - destruct (pieces _ LL R css O (pre ++ order) (fun d H => proj1 (I d H))) as (t & ls & o & S1 & S2 & S3 & S4 & S5).
    eapply spells_resolved; [exact S1|exact S2| |exact S4]. eapply padded_means; [|exact S3].
    eapply padded_trans; [exact S5|]. apply silent_middle. intros d H. apply S. apply (Permutation_in _ P). exact H.
  - clear E. induction (pre ++ order) as [|d l IH]; [exact RO|]. cbn. rewrite <- app_assoc. apply readable_app; [apply I; left; reflexivity|]. apply IH. intros x X. apply I. right. exact X.
Qed.

(** Texts that are sheets on their own are one together, with the rules one after the
    other, whatever the order. *)
Theorem C117_accepted : forall own pre root css LL R src, described own pre root css LL R -> combination own pre root css src ->
  exists order, Permutation order (collected own root) /\ spells src (flat_map R (pre ++ order) ++ R css) /\ exists rules, stylesheet src = Ok rules.
Proof.
  intros own pre root css LL R src D (order & P & ->). exists order. split; [exact P|]. destruct (spelled_together _ _ _ _ _ _ _ D P) as [S _].
  assert (E : concat (sheets R pre css order) = flat_map R (pre ++ order) ++ R css).
  { unfold sheets. rewrite app_assoc, map_app, concat_app, flat_map_concat_map. cbn. rewrite app_nil_r. reflexivity. }
  rewrite E in S. split; [exact S|]. destruct (spelled _ _ _ _ _ _ A L _ _ S) as [X _]. eauto.
Qed.

Lemma style_by_sheets own pre root css LL R order : described own pre root css LL R -> Permutation order (collected own root) ->
  exists rules, stylesheet (combined pre order css) = Ok rules /\ forall default c w anc s, accumulates s = false ->
    (forall p k d ts v, decides c (concat (sheets R pre css order)) (w :: anc) s p k d ts -> In (s, v) (gives d) -> style_of default c w anc rules s = v) /\
    ((exists p k d ts v, decides c (concat (sheets R pre css order)) (w :: anc) s p k d ts /\ In (s, v) (gives d)) \/
     ((forall p k d ts, in_force c (concat (sheets R pre css order)) (w :: anc) p k d ts -> ~ In s (properties_of d)) /\ style_of default c w anc rules s = default s)).
Proof.
  intros D P. destruct (spelled_together _ _ _ _ _ _ _ D P) as [S RD]. destruct (spelled _ _ _ _ _ _ A L _ _ S) as [E W]. eexists. split; [exact E|]. intros default c w anc s N. split.
  - intros p k d ts v H G. eapply decided; eauto.
  - destruct (C114_every_property _ _ _ _ _ _ A L theme_color theme_edge theme_style theme_hatch theme_keyline auto_flag v_true merge _ _ c w anc S RD) as (rules & E' & X). rewrite E in E'. injection E' as <-.
    destruct (X default s N) as [(p & k & d & ts & v & H & G & _)|[H G]]; [left; exists p, k, d, ts, v; auto|right; auto].
Qed.

(** What the program's stylesheet decides on its own about a widget is what happens,
    unless a default is more specific. *)
Theorem C117_program_decides : forall own pre root css LL R src default c w anc s p k d ts v,
  described own pre root css LL R -> combination own pre root css src -> accumulates s = false ->
  decides c (R css) (w :: anc) s p k d ts -> In (s, v) (gives d) ->
  (forall t p' k' d' ts', In t pre \/ In t (collected own root) -> in_force c (R t) (w :: anc) p' k' d' ts' -> In s (properties_of d') -> ~ spec_lt (weight ts) (weight ts')) ->
  exists rules, stylesheet src = Ok rules /\ style_of default c w anc rules s = v.
Proof.
  intros own pre root css LL R src default c w anc s p k d ts v D (order & P & ->) N H G O. destruct (style_by_sheets _ _ _ _ _ _ _ D P) as (rules & E & X). exists rules. split; [exact E|].
  destruct (X default c w anc s N) as [Y _].
  assert (M : nth_error (pre ++ order ++ [css]) (length pre + length order) = Some css) by (apply (fixed_in pre css order); right; auto).
  destruct (at_order R pre css order _ _ _ _ _ _ _ _ M (proj1 H)) as [q Q]. apply (Y q k d ts v); [|exact G]. eapply decides_at; [apply sheets_at, M|exact Q|exact H|].
  intros j Z q' k' d' ts' NJ J F K. apply nth_map in NJ. destruct NJ as (t & NJ & <-). pose proof NJ as B. assert (LJ : j < length (pre ++ order ++ [css])) by (apply nth_error_Some; congruence). rewrite !app_length in LJ. cbn in LJ.
  apply sheets_in in B. assert (T : In t pre \/ In t (collected own root)).
  { destruct B as [[B|[B _]]|[_ B]]; [left; eapply nth_error_In; exact B|lia|right; apply (Permutation_in _ P); exact B]. }
  specialize (O t _ _ _ _ T F K). destruct (spec_total (weight ts) (weight ts')) as [B'|[B'|B']]; [tauto|right; split; [auto|lia]|left; exact B'].
Qed.
(** Where it says nothing, the most specific default decides. *)
Theorem C117_default_decides : forall own pre root css LL R src default c w anc s t p k d ts v,
  described own pre root css LL R -> combination own pre root css src -> accumulates s = false ->
  In t (collected own root) -> decides c (R t) (w :: anc) s p k d ts -> In (s, v) (gives d) ->
  (forall p' k' d' ts', in_force c (R css) (w :: anc) p' k' d' ts' -> ~ In s (properties_of d')) ->
  (forall u p' k' d' ts', In u pre -> in_force c (R u) (w :: anc) p' k' d' ts' -> In s (properties_of d') -> ~ spec_lt (weight ts) (weight ts')) ->
  (forall u p' k' d' ts', In u (collected own root) -> u <> t -> in_force c (R u) (w :: anc) p' k' d' ts' -> In s (properties_of d') -> spec_lt (weight ts') (weight ts)) ->
  exists rules, stylesheet src = Ok rules /\ style_of default c w anc rules s = v.
Proof.
  intros own pre root css LL R src default c w anc s t p k d ts v D (order & P & ->) N I H G O1 O2 O3. destruct (style_by_sheets _ _ _ _ _ _ _ D P) as (rules & E & X). exists rules. split; [exact E|].
  destruct (X default c w anc s N) as [Y _]. apply (Permutation_in _ (Permutation_sym P)) in I. destruct (between_in pre css order t I) as (i & LI & M).
  destruct (at_order R pre css order _ _ _ _ _ _ _ _ M (proj1 H)) as [q Q]. apply (Y q k d ts v); [|exact G]. eapply decides_at; [apply sheets_at, M|exact Q|exact H|].
  intros j Z q' k' d' ts' NJ J F K. apply nth_map in NJ. destruct NJ as (u & NJ & <-). pose proof NJ as B. apply sheets_in in B. destruct B as [[B|[B ->]]|[LJ B]].
  - assert (j < length pre) by (apply nth_error_Some; congruence). apply nth_error_In in B. specialize (O2 u _ _ _ _ B F K). destruct (spec_total (weight ts) (weight ts')) as [B'|[B'|B']]; [tauto|right; split; [auto|lia]|left; exact B'].
  - elim (O1 _ _ _ _ F K).
  - destruct (list_eq_dec Z.eq_dec u t) as [->|U]; [|left; eapply (O3 u); eauto; apply (Permutation_in _ P); exact B].
    exfalso. apply J. assert (ND : NoDup order) by (eapply Permutation_NoDup; [apply Permutation_sym, P|apply C117_collected]).
    assert (IN : forall x, length pre <= x < length pre + length order -> nth_error (pre ++ order ++ [css]) x = Some t -> nth_error order (x - length pre) = Some t).
    { intros x LX NX. rewrite nth_error_app2 in NX by lia. rewrite nth_error_app1 in NX by lia. exact NX. }
    pose proof (IN _ LI M) as N1. pose proof (IN _ LJ NJ) as N2. rewrite NoDup_nth_error in ND. assert (j - length pre = i - length pre); [|lia]. apply ND; [lia|congruence].
Qed.
(** The order of the set does not matter for a property about which no two default
    texts have equally specific declarations that differ. *)
Theorem C117_order_irrelevant : forall own pre root css LL R src src' c w anc s,
  described own pre root css LL R -> combination own pre root css src -> combination own pre root css src' -> accumulates s = false ->
  agree gives c (w :: anc) s R (collected own root) ->
  exists rules rules', stylesheet src = Ok rules /\ stylesheet src' = Ok rules' /\ forall default, style_of default c w anc rules s = style_of default c w anc rules' s.
Proof.
  intros own pre root css LL R src src' c w anc s D (order & P & ->) (order' & P' & ->) N AG. destruct (style_by_sheets _ _ _ _ _ _ _ D P) as (rules & E & X). destruct (style_by_sheets _ _ _ _ _ _ _ D P') as (rules' & E' & X').
  exists rules, rules'. split; [exact E|]. split; [exact E'|]. intros default. destruct (X default c w anc s N) as [Y1 Y2], (X' default c w anc s N) as [Y1' Y2'].
  assert (PO : Permutation order order') by (eapply Permutation_trans; [exact P|apply Permutation_sym, P']).
  assert (AO : agree gives c (w :: anc) s R order) by (intros a b IA IB; apply AG; apply (Permutation_in _ P); assumption).
  destruct Y2 as [(p & k & d & ts & v & H & G)|[H G]], Y2' as [(p' & k' & d' & ts' & v' & H' & G')|[H' G']].
  - rewrite (Y1 _ _ _ _ _ H G), (Y1' _ _ _ _ _ H' G'). destruct (order_same R pre css order order' PO _ _ _ _ _ _ _ _ _ _ _ _ _ _ AO H H' G G') as [->|EQ]; [|exact EQ].
    rewrite <- (Y1' _ _ _ _ _ H' G'). symmetry. apply (Y1' _ _ _ _ _ H' G).
  - exfalso. destruct (in_force_sheets R pre css order _ _ _ _ _ _ (proj1 H)) as (i & t & q & NI & _ & F). destruct (same_place pre css order order' PO t i NI) as [i' NI'].
    exact (none_here R pre css order' c _ s H' i' t q k d ts NI' F (proj1 (proj2 H))).
  - exfalso. destruct (in_force_sheets R pre css order' _ _ _ _ _ _ (proj1 H')) as (i & t & q & NI & _ & F). destruct (same_place pre css order' order (Permutation_sym PO) t i NI) as [i' NI'].
    exact (none_here R pre css order c _ s H i' t q k' d' ts' NI' F (proj1 (proj2 H'))).
  - congruence.
Qed.
End Reading.
Print Assumptions C117_accepted.
Print Assumptions C117_program_decides.
Print Assumptions C117_default_decides.
Print Assumptions C117_order_irrelevant.

(** *** The library's own texts *)
(** numbers of digits only *)
Definition digits (t : text) : option Q :=
  if is_nil t then None else
  fold_left (fun a c => match a with Some q => if ((48 <=? c) && (c <=? 57))%Z then Some (Qred (q * 10 + inject_Z (c - 48))) else None | None => None end) t (Some 0%Q).
Definition read_all (t : text) : res (list (rule V)) := stylesheet ascii_alnum plain_lc same same digits digits t.
Definition own0 (p : text) : text := [].
(** the value of a property of a widget without classes or states, [VInt 0] if nothing is said *)
Definition plain_states : states := States false false false false.
Definition value_of (m : list (rule V)) (w : widget) (cs : list text) (anc : list meta) (s : slot) : V :=
  style_of (fun v => v) (fun v => v) (fun v => v) (fun v => v) (fun v => v) (fun v => v) (VInt 0) (fun _ v => v) (fun _ => VInt 0) ex_ctx (meta_of [] cs plain_states w) anc m s.
Definition library : list kind :=
  [KStatic; KLabel; KButton; KInput; KSwitch; KPlaceholder; KRuler; KLoading; KBar; KCorner; KTooltip; KOptions; KHeader; KHeaderTitle; KHeaderClock; KHeaderIcon;
   KPalette; KSearchIcon; KCommandInput; KCommandList; KContainer; KVertical; KHorizontal; KGrid; KItemGrid; KScrollable; KVScroll; KHScroll; KCenter; KMiddle; KScreen; KApp].
Definition accepted (t : text) : bool := match read_all t with Ok _ => true | _ => false end.
Lemma accepted_ok t : accepted t = true -> exists rules, read_all t = Ok rules.
Proof. unfold accepted. destruct (read_all t); [eauto|discriminate|discriminate]. Qed.
Theorem C117_library_accepted : (exists rules, read_all base_widget_css = Ok rules) /\
  forall k own, (forall p any, k <> KUser p any) -> exists rules, read_all (kind_css own k) = Ok rules.
Proof.
  split; [apply accepted_ok; vm_compute; reflexivity|]. intros k own H. apply accepted_ok.
  assert (X : forallb (fun k => accepted (kind_css own0 k)) library = true) by (vm_compute; reflexivity). rewrite forallb_forall in X.
  assert (E : kind_css own k = kind_css own0 k /\ In k library).
  { destruct k; try (split; [reflexivity|cbn; tauto]). elim (H path any). reflexivity. }
  destruct E as [-> I]. exact (X k I).
Qed.
Print Assumptions C117_library_accepted.

(** Two runs of the same program may look different: the order in which the set is
    gone through decides between defaults of the same specificity.  An option list
    has the name [Container] too, a horizontally scrolling container the name
    [ScrollableContainer], a container laid out horizontally the name [Horizontal]. *)
Definition plain_widget (k : kind) (ks : list widget) : widget := W k None DOther ks.
Definition runs_differ (first : list widget) (w : widget) (s : slot) (v v' : V) : Prop :=
  exists src src' rules rules', sheet_text_of_run own0 None first [] src /\ sheet_text_of_run own0 None first [] src' /\
    read_all src = Ok rules /\ read_all src' = Ok rules' /\ value_of rules w [] [] s = v /\ value_of rules' w [] [] s = v' /\ v <> v'.
Definition result_of (t : text) : list (rule V) := match read_all t with Ok r => r | _ => [] end.
Lemma result_of_ok t : accepted t = true -> read_all t = Ok (result_of t).
Proof. unfold accepted, result_of. destruct (read_all t); congruence. Qed.
Lemma both_ways first w s v v' (t := collected own0 (composed None first)) :
  accepted (combined [base_widget_css] t []) = true -> accepted (combined [base_widget_css] (rev t) []) = true ->
  value_of (result_of (combined [base_widget_css] t [])) w [] [] s = v -> value_of (result_of (combined [base_widget_css] (rev t) [])) w [] [] s = v' -> v <> v' -> runs_differ first w s v v'.
Proof.
  intros A1 A2 E1 E2 N. exists (combined [base_widget_css] t []), (combined [base_widget_css] (rev t) []), (result_of (combined [base_widget_css] t [])), (result_of (combined [base_widget_css] (rev t) [])).
  split; [exists t; split; [apply Permutation_refl|reflexivity]|]. split; [exists (rev t); split; [apply Permutation_sym, Permutation_rev|reflexivity]|]. auto using result_of_ok.
Qed.
Theorem C117_order_matters_refuted :
  runs_differ [plain_widget KOptions []; plain_widget KContainer []] (plain_widget KOptions []) Css_Model.height (VScalar (Scalar 0 Auto)) (VScalar (Scalar 1 Fraction)) /\
  runs_differ [plain_widget KHScroll []; plain_widget KScrollable []] (plain_widget KHScroll []) layout (VWord Sheet_Model.KHorizontal) (VWord Sheet_Model.KVertical) /\
  runs_differ [plain_widget KVScroll []; plain_widget KScrollable []] (plain_widget KVScroll []) overflow_x (VWord KHidden) (VWord KAuto) /\
  runs_differ [plain_widget KHorizontal []; plain_widget KContainer []] (W KContainer None DHorizontal []) layout (VWord Sheet_Model.KHorizontal) (VWord Sheet_Model.KVertical).
Proof. repeat split; (apply both_ways; [vm_compute; reflexivity|vm_compute; reflexivity|vm_compute; reflexivity|vm_compute; reflexivity|discriminate]). Qed.
Print Assumptions C117_order_matters_refuted.
(** "App CSS will override" (lib.rs:137) does not hold for defaults with a class or a
    state: whatever the order, a tall header stays three rows high. *)
Theorem C117_program_overrides_refuted : forall src, combination own0 [base_widget_css] (plain_widget KHeader []) (str "Header { height: 5; }") src ->
  exists rules, read_all src = Ok rules /\ value_of rules (plain_widget KHeader []) [] [] Css_Model.height = VScalar (Scalar 5 Cells) /\
    value_of rules (plain_widget KHeader []) [str "-tall"] [] Css_Model.height = VScalar (Scalar 3 Cells).
Proof.
  intros src (order & P & ->). change (collected own0 (plain_widget KHeader [])) with [css_header] in P. apply Permutation_sym, Permutation_length_1_inv in P. subst order.
  exists (result_of (combined [base_widget_css] [css_header] (str "Header { height: 5; }"))). split; [apply result_of_ok; vm_compute; reflexivity|]. split; vm_compute; reflexivity.
Qed.
Print Assumptions C117_program_overrides_refuted.
(** The text is made once, from the first tree: a label that first appears when the
    program composes again has no default width, one that was there from the start has. *)
Theorem C117_composed_again_refuted : exists src src' rules rules',
  sheet_text_of_run own0 None [] [] src /\ sheet_text_of_run own0 None [plain_widget KLabel []] [] src' /\ read_all src = Ok rules /\ read_all src' = Ok rules' /\
  In (plain_widget KLabel []) (styled_children (plain_widget KScreen [plain_widget KLabel []])) /\
  value_of rules (plain_widget KLabel []) [] [] width = VInt 0 /\ value_of rules' (plain_widget KLabel []) [] [] width = VScalar (Scalar 0 Auto).
Proof.
  exists (combined [base_widget_css] (collected own0 (composed None [])) []), (combined [base_widget_css] (collected own0 (composed None [plain_widget KLabel []])) []), (result_of (combined [base_widget_css] (collected own0 (composed None [])) [])), (result_of (combined [base_widget_css] (collected own0 (composed None [plain_widget KLabel []])) [])).
  split; [eexists; split; [apply Permutation_refl|reflexivity]|]. split; [eexists; split; [apply Permutation_refl|reflexivity]|].
  split; [apply result_of_ok; vm_compute; reflexivity|]. split; [apply result_of_ok; vm_compute; reflexivity|]. split; [left; reflexivity|]. split; vm_compute; reflexivity.
Qed.
Print Assumptions C117_composed_again_refuted.

(** *** Example: two widgets of a program, and its stylesheet *)
Definition ex_own (p : text) : text := if text_eqb p (str "A") then ex114 else if text_eqb p (str "B") then str "B { width: 50%; }" else [].
Definition ex_root : widget := W (KUser (str "A") false) None DOther [Boxed (W (KUser (str "B") false) None DOther []); W (KUser (str "A") false) None DOther []].
Definition ex_css : text := str "A { width: auto; }".
Definition ex_B : complex := [([SType (str "B")], CNone)].
Definition B_rules : list (rule V) := [Rule V [ex_B] [IDecl V width50]].
Definition css_rules : list (rule V) := [Rule V [ex_A] [IDecl V ex_auto]].
Definition ex_R (t : text) : list (rule V) := if text_eqb t ex114 then ex_rules else if text_eqb t ex_css then css_rules else B_rules.
Definition ex_L (t : text) : list line := [Code [Lit t]].
Lemma B_text : ex_sheet B_rules (str "B { width: 50%; }").
Proof.
  apply (sh_rule _ _ _ _ _ _ _ _ _ _ _ _ (str "B { width: 50%; }") _ []); [|apply sh_end; gp].
  apply (r_rule _ _ _ _ _ _ _ _ _ _ _ [ex_B] _ [] (str "B") (str " ") (str " width: 50%;") (str " ")); [gp| |gp| |gp].
  - apply l_one, x_last, c_one, t_type. idt.
  - apply (b_declaration _ _ _ _ _ _ _ _ _ _ _ width50 (str " ") (str "width: 50%") _ []); [gp|exact width_text|apply b_nil].
Qed.
Lemma css_text : ex_sheet css_rules ex_css.
Proof.
  apply (sh_rule _ _ _ _ _ _ _ _ _ _ _ _ ex_css _ []); [|apply sh_end; gp].
  apply (r_rule _ _ _ _ _ _ _ _ _ _ _ [ex_A] _ [] (str "A") (str " ") (str " width: auto;") (str " ")); [gp| |gp| |gp].
  - apply l_one, x_last, c_one, t_type. idt.
  - apply (b_declaration _ _ _ _ _ _ _ _ _ _ _ ex_auto (str " ") (str "width: auto") _ []); [gp|exact auto_text|apply b_nil].
Qed.
Lemma absent c t : existsb (Z.eqb c) t = false -> ~ In c t.
Proof. intros E I. assert (X : existsb (Z.eqb c) t = true) by (apply existsb_exists; exists c; split; [exact I|apply Z.eqb_refl]). congruence. Qed.
Lemma plain_uncommented t : ~ In 47%Z t -> uncommented t t.
Proof. induction t as [|c t IH]; intros N; [constructor|]. apply un_char; [intros ->; apply N; left; reflexivity|]. apply IH. intros I. apply N. right. exact I. Qed.
Lemma plain_source t : t <> [] -> ~ In 47%Z t -> ~ In 36%Z t -> ~ In 10%Z t -> ~ In 13%Z t -> source ascii_alnum (ex_L t) t.
Proof.
  intros T S D N R. exists [t]. split; [|split; [|split]].
  - constructor; [|constructor]. replace t with (flat_map piece_text [Lit t]) at 2 by (cbn; apply app_nil_r). apply w_code; [constructor; [exact D|constructor]|exact I|].
    intros w r _ E. cbn in E. rewrite app_nil_r in E. apply D. rewrite E. apply in_or_app. right. left. reflexivity.
  - constructor; [auto|constructor].
  - right. split; [cbn; now rewrite app_nil_r|exact T].
  - split; intros a b E; apply S; rewrite E; apply in_or_app; right; [left; reflexivity|right; left; reflexivity].
Qed.
Lemma plain_sheet env t l : t <> [] -> existsb (Z.eqb 47) t = false -> existsb (Z.eqb 36) t = false -> existsb (Z.eqb 10) t = false -> existsb (Z.eqb 13) t = false ->
  ex_sheet l t -> closed_sheet ascii_alnum plain_lc same same fifty fifty env t (ex_L t) l.
Proof.
  intros T S D N R H. apply absent in S, D, N, R. exists t, (t ++ [10%Z] ++ []). split; [apply plain_uncommented, S|]. split; [apply plain_source; assumption|]. split.
  - replace t with (concat [t]) at 2 by (cbn; apply app_nil_r). constructor; [constructor; [constructor|constructor]|constructor].
  - rewrite <- (app_nil_r l). apply sheet_app; [exact H|]. apply sh_end. constructor; [auto|constructor].
Qed.
Lemma plain_readable sel (d : declaration V) : inner sel = [] -> readable [Rule V [sel] [IDecl V d]].
Proof.
  intros E p ss items is ts W P. apply written_iff in W. cbn in W. destruct W as [W|[]]. injection W as <- <- <-. apply one_pick in P. destruct P as (is' & ts' & -> & -> & P). inversion P; subst. intros i j b _ H. cbn in H. rewrite E in H. destruct i; discriminate.
Qed.
Definition ex_A_widget : meta := Meta (str "A") [] None [] plain_states.
(** the program's declaration decides although the default is in force too *)
Example C117_example : described ascii_alnum plain_lc same same fifty fifty ex_own [] ex_root ex_css ex_L ex_R /\
  In ex114 (collected ex_own ex_root) /\ length (collected ex_own ex_root) = 2 /\
  in_force ex_ctx (ex_R ex114) [ex_A_widget] [0] 0 width50 [ex_A] /\ decides ex_ctx (ex_R ex_css) [ex_A_widget] width [0] 0 ex_auto [ex_A].
Proof.
  assert (MA : meaning ex_ctx [ex_A] [ex_A_widget]) by (cbn; constructor; [left; reflexivity|constructor]).
  assert (CO : collected ex_own ex_root = [str "B { width: 50%; }"; ex114]) by (vm_compute; reflexivity).
  assert (RA : readable css_rules) by (apply plain_readable; reflexivity). assert (RB : readable B_rules) by (apply plain_readable; reflexivity).
  split; [|split; [rewrite CO; right; left; reflexivity|split; [rewrite CO; reflexivity|split]]].
  - split; [|split; [|split; [exact RA|]]].
    + rewrite CO. intros d [[]|[<-|[<-|[]]]]; (split; [apply plain_sheet; [discriminate|vm_compute; reflexivity|vm_compute; reflexivity|vm_compute; reflexivity|vm_compute; reflexivity|]|]); [exact B_text|exact RB|exact ex_rules_text|exact ex_readable].
    + pose proof (plain_sheet (flat_map ex_L [] ++ ex_L ex_css) ex_css css_rules) as X. destruct X as (t & o & U & X); [discriminate|vm_compute; reflexivity|vm_compute; reflexivity|vm_compute; reflexivity|vm_compute; reflexivity|exact css_text|].
      exists t, o. split; [|exact X]. clear -U. induction U; [constructor|apply strips_final_slash|apply strips_char; assumption|apply strips_slash; assumption|apply strips_block; assumption|apply strips_line; assumption|apply strips_open_line; assumption].
    + intros d _ n v [H|[]]. discriminate.
  - exists [[ex_A]], [IDecl V width50; INested V (Rule V [ex_b] [IDecl V ex_auto])], [0]. split; [apply written_top; reflexivity|]. split; [reflexivity|]. split; [repeat econstructor|]. split; [exact MA|]. intros is' ts' P E. apply ex_picks_1 in P. destruct P as [-> _]. cbn in E. lia.
  - split; [|split; [left; reflexivity|]].
    + exists [[ex_A]], [IDecl V ex_auto], [0]. split; [apply written_top; reflexivity|]. split; [reflexivity|]. split; [repeat econstructor|]. split; [exact MA|]. intros is' ts' P E. apply ex_picks_1 in P. destruct P as [-> _]. cbn in E. lia.
    + intros p' k' d' ts' (ss & items & is & W & N & _) _. apply written_iff in W. cbn in W. destruct W as [W|[]]. injection W as <- <- <-. destruct k' as [|[|k']]; try discriminate. left. reflexivity.
Qed.
(** both defaults together leave no choice for the width of an [A] *)
Example C117_example_order : agree (gives (fun v => v) (fun v => v) (fun v => v) (fun v => v) (fun v => v) (fun v => v) (VInt 0) top right bottom left horizontal vertical)
  ex_ctx [ex_A_widget] width ex_R (collected ex_own ex_root).
Proof.
  assert (CO : collected ex_own ex_root = [str "B { width: 50%; }"; ex114]) by (vm_compute; reflexivity). rewrite CO.
  assert (NB : forall p k d ts, ~ in_force ex_ctx (ex_R (str "B { width: 50%; }")) [ex_A_widget] p k d ts).
  { intros p k d ts (ss & items & is & W & _ & P & M & _). change (ex_R (str "B { width: 50%; }")) with B_rules in W. apply written_iff in W. cbn in W. destruct W as [W|[]]. injection W as <- <- <-. apply one_pick in P. destruct P as (is' & ts' & -> & -> & P). inversion P; subst.
    cbn in M. inversion M as [|? ? M1]; subst. destruct M1 as [M1|M1]; [discriminate|destruct M1]. }
  intros a b [<-|[<-|[]]] [<-|[<-|[]]] N; try congruence; intros p k d ts p' k' d' ts' v v' F F'; [elim (NB _ _ _ _ F)|elim (NB _ _ _ _ F')].
Qed.
