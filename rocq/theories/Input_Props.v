(** The Input widget: a text buffer (C44) and its display (C45). *)
From Coq Require Import String ZArith List Bool Arith Lia.
From Verif Require Import Text_Model Markup_Model Markup_Spec Markup_Proofs Input_Model Input_Spec Input_Proofs.
Import ListNotations.
Notation length := List.length.
Notation concat := List.concat.
Open Scope list_scope.
Open Scope nat_scope.
Arguments blen : simpl never.
Arguments utf8_len : simpl never.

Section Buffer.
Variable gr : text -> list text.
Hypothesis Hgr : forall t, concat (gr t) = t.

(** *** C44: no history of keys, values, cursor positions and states makes an
    Input panic, whatever the clusters of its text. *)
Theorem C44_never_panics : forall os, exists s, run gr input_new os = Some s.
Proof. intros os. apply run_total; auto. Qed.

(** *** C44: a key acts on the clusters before and after the cursor. *)
Theorem C44_key : forall s b k, represents gr s b ->
  exists s', on_key gr s k = Some s' /\
    i_value s' = b_text (b_op gr b (Key k)) /\ i_cursor s' = length (b_before (b_op gr b (Key k))).
Proof. intros s b k R. destruct (key_spec gr Hgr s b k R) as (s' & E & V & C & _). exists s'. auto. Qed.

(** *** C44: over any history in which only characters are typed or set that are
    clusters of their own, the Input is a text with a gap at the cursor. *)
Theorem C44_buffer : forall good : char -> Prop, (forall t, Forall good t -> gr t = map (fun c => [c]) t) ->
  forall os, Forall (fun o => Forall good (op_chars o)) os ->
  exists s, run gr input_new os = Some s /\ represents gr s (fold_left (b_op gr) os b_empty).
Proof.
  intros good Hgood os F. eapply run_represents; eauto.
  - unfold represents. cbn. repeat split. apply (Hgood []). constructor.
  - constructor.
Qed.
(** In particular the cursor stays inside the text. *)
Theorem C44_cursor_inside : forall good : char -> Prop, (forall t, Forall good t -> gr t = map (fun c => [c]) t) ->
  forall os s, Forall (fun o => Forall good (op_chars o)) os -> run gr input_new os = Some s ->
  i_cursor s <= length (gr (i_value s)).
Proof.
  intros good Hgood os s F E. destruct (C44_buffer good Hgood os F) as (s' & E' & V & C & G & _). rewrite E in E'. inversion E'; subst s'.
  rewrite C, G, app_length. lia.
Qed.
End Buffer.
Print Assumptions C44_never_panics.
Print Assumptions C44_key.
Print Assumptions C44_buffer.
Print Assumptions C44_cursor_inside.

Section Display.
Variable gr : text -> list text.
Hypothesis Hgr : forall t, concat (gr t) = t.
Hypothesis Hne : forall t g, In g (gr t) -> g <> [].
Variable lower : text -> text.
Variable known_color : text -> bool.
Hypothesis Hlow : forall t, Forall (fun c => 32 <= c < 65 \/ 97 <= c < 128)%Z t -> lower t = t.
Notation parse := (parse lower known_color).

Lemma shown : forall os s, run gr input_new os = Some s -> i_shown s = build_display gr (i_value s) (i_holder s) (i_cursor s) (i_focused s).
Proof. intros os s E. eapply fresh_run; [|exact E]. apply fresh_new. Qed.
Lemma build_value : forall v h c f, v <> [] -> build_display gr v h c f =
  if negb f then escape_markup v
  else match nth_error (gr v) (Nat.min c (length (gr v))) with
       | None => escape_markup v ++ tag_around cursor_style (str " ")
       | Some g => escape_markup (concat (firstn (Nat.min c (length (gr v))) (gr v))) ++ tag_around cursor_style (escape_markup g)
                   ++ escape_markup (concat (skipn (S (Nat.min c (length (gr v)))) (gr v)))
       end.
Proof. intros [|x v] h c f N; [congruence|]. reflexivity. Qed.

(** *** C45: after any history, what an Input without focus shows is its value,
    character by character, with no styles, whatever the value is. *)
Theorem C45_unfocused : forall os s, run gr input_new os = Some s -> i_focused s = false -> i_value s <> [] ->
  parse (i_shown s) = Ok (Parsed (i_value s) []).
Proof. intros os s E F N. rewrite (shown os s E), build_value, F by auto. apply escape_roundtrip. Qed.

(** *** C45: with focus the value is shown with the cluster at the cursor, and
    only that, in the cursor's colours. *)
Theorem C45_cursor_inside : forall os s x g y, run gr input_new os = Some s -> i_focused s = true ->
  gr (i_value s) = x ++ g :: y -> i_cursor s = length x ->
  parse (i_shown s) = Ok (Parsed (i_value s) [Span (blen (concat x)) (blen (concat x) + blen g) cursor_look []]).
Proof.
  intros os s x g y E F G C. assert (N : i_value s <> []).
  { intros N. pose proof (Hne (i_value s) g) as X. rewrite G in X. specialize (X ltac:(apply in_or_app; right; left; auto)).
    pose proof (Hgr (i_value s)) as T. rewrite G, N in T. rewrite concat_app in T. apply app_eq_nil in T as [_ T]. cbn in T. apply app_eq_nil in T as [T _]. auto. }
  rewrite (shown os s E), build_value, F by auto. cbn [negb].
  assert (M : Nat.min (i_cursor s) (length (gr (i_value s))) = length x) by (rewrite G, C, app_length; cbn; lia). rewrite M, G.
  rewrite nth_error_app2, Nat.sub_diag by lia. cbn [nth_error].
  replace (firstn (length x) (x ++ g :: y)) with x by (rewrite firstn_app, firstn_all, Nat.sub_diag; symmetry; apply app_nil_r).
  replace (skipn (S (length x)) (x ++ g :: y)) with y.
  2:{ rewrite skipn_app, skipn_all2 by lia. replace (S (length x) - length x) with 1 by lia. reflexivity. }
  apply parse_end. rewrite parse_from_escape. unfold push_text, parser_new. cbn [ps_stack ps_out ps_spans app].
  rewrite parse_cursor by auto. rewrite <- (app_nil_r (escape_markup (concat y))), parse_from_escape, parse_from_nil. unfold push_text. cbn [ps_stack ps_out ps_spans app].
  assert (GN : g <> []) by (apply (Hne (i_value s)); rewrite G; apply in_or_app; right; left; auto).
  destruct g as [|c g]; [congruence|]. do 2 f_equal. rewrite <- app_assoc. rewrite <- (Hgr (i_value s)), G, concat_app. reflexivity.
Qed.
(** At (or past) the end of the value the cursor is a space after it. *)
Theorem C45_cursor_end : forall os s, run gr input_new os = Some s -> i_focused s = true -> i_value s <> [] ->
  length (gr (i_value s)) <= i_cursor s ->
  parse (i_shown s) = Ok (Parsed (i_value s ++ str " ") [Span (blen (i_value s)) (blen (i_value s) + 1) cursor_look []]).
Proof.
  intros os s E F N L. rewrite (shown os s E), build_value, F by auto. cbn [negb]. rewrite Nat.min_r by lia.
  rewrite (proj2 (nth_error_None _ _)) by lia. apply parse_end. rewrite parse_from_escape. unfold push_text, parser_new. cbn [ps_stack ps_out ps_spans app].
  change (str " ") with (escape_markup (str " ")) at 1. rewrite <- (app_nil_r (tag_around _ _)), parse_cursor by auto. rewrite parse_from_nil. reflexivity.
Qed.
(** *** C45: an empty Input shows its placeholder literally, with the cursor over
    its first cluster when it has focus. *)
Theorem C45_placeholder_unfocused : forall os s p, run gr input_new os = Some s -> i_focused s = false -> i_value s = [] ->
  i_holder s = Some p -> p <> [] ->
  parse (i_shown s) = Ok (Parsed p [Span 0 (blen p) holder_look []]).
Proof.
  intros os s p E F V H N. rewrite (shown os s E), V, H, F. cbn [build_display negb]. apply parse_end.
  rewrite <- (app_nil_r (tag_around _ _)). unfold parser_new. rewrite parse_holder, parse_from_nil by auto. destruct p; [congruence|]. reflexivity.
Qed.
Theorem C45_placeholder_focused : forall os s p g y, run gr input_new os = Some s -> i_focused s = true -> i_value s = [] ->
  i_holder s = Some p -> gr p = g :: y ->
  parse (i_shown s) = Ok (Parsed p (Span 0 (blen g) cursor_look [] ::
                                    match y with [] => [] | _ => [Span (blen g) (blen p) holder_look []] end)).
Proof.
  intros os s p g y E F V H G. rewrite (shown os s E), V, H, F. cbn [build_display negb].
  assert (P : p = g ++ concat y) by (rewrite <- (Hgr p), G; reflexivity).
  assert (GN : g <> []) by (apply (Hne p); rewrite G; left; auto).
  assert (PN : p <> []) by (rewrite P; destruct g; [congruence|discriminate]).
  destruct p as [|c0 p0] eqn:EP; [congruence|]. rewrite <- EP in *. rewrite G. cbn [tl].
  apply parse_end. unfold parser_new. rewrite parse_cursor by auto. rewrite <- (app_nil_r (tag_around holder_style _)), parse_holder, parse_from_nil by auto.
  cbn [app]. rewrite <- P. do 2 f_equal. destruct g as [|c g]; [congruence|]. cbn [app]. rewrite !Nat.add_0_l. f_equal. rewrite P.
  assert (YN : y <> [] -> concat y <> []).
  { intros Y. destruct y as [|h y]; [congruence|]. assert (h <> []) by (apply (Hne p); rewrite G; right; left; auto). destruct h; [congruence|discriminate]. }
  destruct y as [|h y]; [reflexivity|]. specialize (YN ltac:(discriminate)). destruct (concat (h :: y)) as [|c1 r] eqn:CY; [congruence|]. rewrite blen_app. reflexivity.
Qed.
(** Without value and placeholder: nothing, or a cursor. *)
Theorem C45_empty : forall os s, run gr input_new os = Some s -> i_value s = [] -> i_holder s = None ->
  parse (i_shown s) = Ok (if i_focused s then Parsed (str " ") [Span 0 1 cursor_look []] else Parsed [] []).
Proof.
  intros os s E V H. rewrite (shown os s E), V, H. cbn [build_display]. destruct (i_focused s); cbn [negb].
  - apply parse_end. change (str " ") with (escape_markup (str " ")) at 1. rewrite <- (app_nil_r (tag_around _ _)). unfold parser_new.
    rewrite parse_cursor, parse_from_nil by auto. reflexivity.
  - reflexivity.
Qed.
End Display.
Print Assumptions C45_unfocused.
Print Assumptions C45_cursor_inside.
Print Assumptions C45_cursor_end.
Print Assumptions C45_placeholder_unfocused.
Print Assumptions C45_placeholder_focused.
Print Assumptions C45_empty.

(** *** Concrete cases: one-char clusters *)
Definition igr (t : text) : list text := map (fun c => [c]) t.
Lemma igr_ok : (forall t, concat (igr t) = t) /\ (forall t g, In g (igr t) -> g <> []) /\
  (forall t, Forall (fun _ => True) t -> igr t = map (fun c => [c]) t).
Proof.
  split; [|split; auto].
  - intros t. unfold igr. induction t as [|c t IH]; auto. cbn. rewrite IH. auto.
  - intros t g H. apply in_map_iff in H. destruct H as (c & <- & _). discriminate.
Qed.
(** type "a[b", go left twice, delete, type "x" *)
Definition session : list op :=
  [SetFocus true; Key (KChar 97%Z); Key (KChar 91%Z); Key (KChar 98%Z); Key KLeft; Key KLeft; Key KDelete; Key (KChar 120%Z)].
Example C44_witness :
  option_map (fun s => (i_value s, i_cursor s)) (run igr input_new session) = Some ([97; 120; 98]%Z, 2) /\
  b_text (fold_left (b_op igr) session b_empty) = [97; 120; 98]%Z.
Proof. split; reflexivity. Qed.
Example C45_witness : option_map (fun s => parse (fun t => t) (fun _ => false) (i_shown s)) (run igr input_new session)
  = Some (Ok (Parsed [97; 120; 98]%Z [Span 2 3 cursor_look []])).
Proof. reflexivity. Qed.
Example C45_witness_placeholder : option_map (fun s => parse (fun t => t) (fun _ => false) (i_shown s)) (run igr input_new [SetPlaceholder (Some (str "[hi]")); SetFocus true])
  = Some (Ok (Parsed (str "[hi]") [Span 0 1 cursor_look []; Span 1 4 holder_look []])).
Proof. reflexivity. Qed.

(** *** What does not hold: with combining marks the cursor leaves the text *)
(** U+0301 joins the character before it. *)
Fixpoint cgr (t : text) : list text :=
  match t with
  | [] => []
  | c :: r => match cgr r with
              | (x :: g) :: gs => if (x =? 769)%Z then (c :: x :: g) :: gs else [c] :: (x :: g) :: gs
              | gs => [c] :: gs
              end
  end.
Lemma cgr_concat : forall t, concat (cgr t) = t.
Proof.
  induction t as [|c t IH]; auto. cbn [cgr]. destruct (cgr t) as [|[|x g] gs]; cbn [concat app] in *; try (rewrite IH; reflexivity).
  destruct (x =? 769)%Z; cbn [concat app]; rewrite <- IH; reflexivity.
Qed.
Theorem C44_cursor_past_end_refuted : exists os s, run cgr input_new os = Some s /\ length (cgr (i_value s)) < i_cursor s.
Proof. exists [Key (KChar 101%Z); Key (KChar 769%Z)]. eexists. split; [reflexivity|]. vm_compute. lia. Qed.
Print Assumptions C44_cursor_past_end_refuted.
(** and a Left key is lost: "e", U+0301, Left, "x" leaves the "x" at the end. *)
Theorem C44_left_lost_refuted :
  option_map i_value (run cgr input_new [Key (KChar 101%Z); Key (KChar 769%Z); Key KLeft; Key (KChar 120%Z)]) = Some [101; 769; 120]%Z.
Proof. reflexivity. Qed.
Print Assumptions C44_left_lost_refuted.
