From Coq Require Import String ZArith QArith List Bool Arith Permutation Lia.
From Verif Require Import Text_Model Css_Model Css_Spec Css_Proofs Nest_Proofs Variables_Spec Sheet_Model Sheet_Spec Name_Model Styled_Spec Styled_Proofs Default_Model Default_Spec.
Import ListNotations.
Local Open Scope nat_scope.
Local Open Scope list_scope.

(** *** The set *)
Section Own.
Variable own : text -> text.
Lemma text_eqb_true a b : text_eqb a b = true <-> a = b.
Proof. apply text_eqb_eq. Qed.
Lemma insert_in t l d : In d (insert t l) <-> d = t \/ In d l.
Proof.
  unfold insert. destruct (existsb (text_eqb t) l) eqn:E; cbn; [|intuition congruence]. split; [auto|]. intros [->|H]; [|exact H].
  apply existsb_exists in E. destruct E as (x & X & E). apply text_eqb_true in E. subst. exact X.
Qed.
Lemma insert_nodup t l : NoDup l -> NoDup (insert t l).
Proof.
  unfold insert. destruct (existsb (text_eqb t) l) eqn:E; [auto|]. intros N. constructor; [|exact N]. intros I.
  assert (X : existsb (text_eqb t) l = true) by (apply existsb_exists; exists t; split; [exact I|apply text_eqb_true; reflexivity]). congruence.
Qed.
Lemma is_nil_iff (t : text) : is_nil t = true <-> t = [].
Proof. destruct t; cbn; split; congruence. Qed.
Lemma shown k id l ks : styled_children (W k id l ks) = if shows k then ks else [].
Proof. destruct k; reflexivity. Qed.

Fixpoint size (w : widget) : nat := match w with W _ _ _ ks => S (fold_right (fun k n => size k + n) 0 ks) | Boxed v => S (size v) end.
Lemma size_in w ks : In w ks -> size w <= fold_right (fun k n => size k + n) 0 ks.
Proof. induction ks as [|a ks IH]; cbn; [tauto|]. intros [->|H]; [lia|]. specialize (IH H). lia. Qed.
Lemma within_trans a b c : within a b -> within b c -> within a c.
Proof. intros H K. induction K; [exact H|]. econstructor; eauto. Qed.
Lemma within_boxed v w : within v w -> w = v \/ within (Boxed v) w.
Proof. induction 1 as [|w x H IH I]; [auto|]. right. destruct IH as [->|IH]; [apply within_child with (w := Boxed v); [constructor|exact I]|econstructor; eauto]. Qed.
Lemma boxed_within v w : within (Boxed v) w -> w = Boxed v \/ within v w.
Proof. induction 1 as [|w x H IH I]; [auto|]. right. destruct IH as [->|IH]; [apply within_child with (w := v); [constructor|exact I]|econstructor; eauto]. Qed.
Lemma within_cases r w : within r w -> w = r \/ exists x, In x (styled_children r) /\ within x w.
Proof. induction 1 as [|w x H IH I]; [auto|]. right. destruct IH as [->|(y & Y & K)]; [exists x; split; [exact I|constructor]|exists y; split; [exact Y|econstructor; eauto]]. Qed.

Definition carried (w : widget) (d : text) : Prop := exists x, within w x /\ default_css own x = d /\ d <> [].
Lemma collect_ok : forall n w, size w <= n -> forall acc, (NoDup acc -> NoDup (collect own w acc)) /\ forall d, In d (collect own w acc) <-> In d acc \/ carried w d.
Proof.
  induction n as [|n IH]; intros w Hs acc; [destruct w; cbn in Hs; lia|]. destruct w as [k id l ks|v].
  - cbn [collect]. set (acc' := if is_nil (kind_css own k) then acc else insert (kind_css own k) acc).
    assert (A1 : NoDup acc -> NoDup acc') by (unfold acc'; destruct (is_nil _); auto using insert_nodup).
    assert (A2 : forall d, In d acc' <-> In d acc \/ (d = kind_css own k /\ d <> [])).
    { intros d. unfold acc'. destruct (is_nil (kind_css own k)) eqn:E; [apply is_nil_iff in E; rewrite E; intuition congruence|]. rewrite insert_in.
      assert (kind_css own k <> []) by (intros X; apply is_nil_iff in X; congruence). intuition congruence. }
    assert (A3 : forall ks0 acc0, (forall x, In x ks0 -> size x <= n) -> (NoDup acc0 -> NoDup (fold_left (fun a c => collect own c a) ks0 acc0)) /\
      forall d, In d (fold_left (fun a c => collect own c a) ks0 acc0) <-> In d acc0 \/ exists x, In x ks0 /\ carried x d).
    { induction ks0 as [|x ks0 IHk]; intros acc0 B; cbn; [split; [auto|]; intros d; split; [auto|intros [H|(x & [] & _)]; exact H]|].
      destruct (IH x (B x (or_introl eq_refl)) acc0) as [N1 M1]. destruct (IHk (collect own x acc0)) as [N2 M2]; [intros; apply B; right; assumption|]. split; [auto|].
      intros d. rewrite M2, M1. split.
      - intros [[H|H]|(y & Y & H)]; [auto|right; exists x; auto|right; exists y; auto].
      - intros [H|(y & [->|Y] & H)]; [auto|auto|right; exists y; auto]. }
    assert (B : forall x, In x ks -> size x <= n) by (intros x X; apply size_in in X; cbn in Hs; lia).
    destruct (A3 ks acc' B) as [N M].
    assert (C : forall d, carried (W k id l ks) d <-> (d = kind_css own k /\ d <> []) \/ exists x, In x (if shows k then ks else []) /\ carried x d).
    { intros d. rewrite <- (shown k id l ks). split.
      - intros (x & X & E & D). apply within_cases in X. destruct X as [->|(y & Y & K)]; [left; cbn in E; auto|right; exists y; split; [exact Y|exists x; auto]].
      - intros [[E D]|(x & X & y & Y & E & D)]; [exists (W k id l ks); split; [constructor|cbn; auto]|].
        exists y. split; [|auto]. eapply within_trans; [|exact Y]. eapply within_child; [constructor|exact X]. }
    destruct (shows k).
    + split; [auto|]. intros d. rewrite M, A2, C. tauto.
    + split; [auto|]. intros d. rewrite A2, C. split; [tauto|]. intros [H|[H|(x & [] & _)]]; auto.
  - cbn [collect]. cbn in Hs. destruct (IH v ltac:(lia) acc) as [N M]. split; [exact N|]. intros d. rewrite M.
    assert (C : carried (Boxed v) d <-> carried v d); [|tauto]. split; intros (x & X & E & D).
    + apply boxed_within in X. destruct X as [->|X]; [exists v; split; [constructor|auto]|exists x; auto].
    + apply within_boxed in X. destruct X as [->|X]; [exists (Boxed v); split; [constructor|auto]|exists x; auto].
Qed.
End Own.

(** *** One text after the other *)
Lemma uncommented_strips a ta : uncommented a ta -> forall b tb, strips b tb -> strips (a ++ 10%Z :: b) (ta ++ 10%Z :: tb).
Proof.
  intros H b tb B. assert (B' : strips (10%Z :: b) (10%Z :: tb)) by (apply strips_char; [discriminate|exact B]).
  induction H; cbn [app].
  - exact B'.
  - apply strips_slash; [discriminate|discriminate|exact B'].
  - now apply strips_char.
  - apply strips_slash; assumption.
  - rewrite <- app_assoc. cbn [app]. now apply strips_block.
  - rewrite <- app_assoc. cbn [app]. now apply strips_line.
  - apply (strips_line body b tb); assumption.
Qed.

Section Lines.
Variable alnum : char -> bool.
Notation source := (source alnum).
Lemma no_pair x y (a b : text) : x <> 10%Z -> y <> 10%Z -> (forall u v, a <> u ++ [x; y] ++ v) -> (forall u v, b <> u ++ [x; y] ++ v) ->
  forall u v, a ++ 10%Z :: b <> u ++ [x; y] ++ v.
Proof.
  intros X Y A B u v E. revert u E. induction a as [|c a IH]; intros u E; cbn in E.
  - destruct u as [|c u]; cbn in E; [injection E as E1 _; congruence|]. injection E as _ E. exact (B _ _ E).
  - destruct u as [|d u]; cbn in E.
    + injection E as -> E. destruct a as [|d a]; cbn in E; injection E as E1 E; [congruence|]. subst. apply (A [] a). reflexivity.
    + injection E as -> E. apply (IH (fun u' v' Q => A (d :: u') v' (f_equal (cons d) Q)) u E).
Qed.
(** blank lines or not, the code lines are there *)
Inductive padded : list line -> list line -> Prop :=
| pad_nil : padded [] []
| pad_cons : forall x a b, padded a b -> padded (x :: a) (x :: b)
| pad_code : forall ps a b, padded a b -> padded a (Code ps :: b).
Lemma padded_refl l : padded l l.
Proof. induction l; constructor; auto. Qed.
Lemma padded_app a b c d : padded a b -> padded c d -> padded (a ++ c) (b ++ d).
Proof. intros H K. induction H; cbn; [exact K|constructor; auto|constructor; auto]. Qed.
Lemma padded_silent a b ls : silent ls -> padded a b -> padded a (ls ++ b).
Proof.
  intros H K. induction ls as [|[n v|ps] ls IH]; cbn; [exact K|elim (H n v); left; reflexivity|]. constructor. apply IH. intros n v I. apply (H n v). right. exact I.
Qed.
Lemma padded_trans b d : padded b d -> forall a, padded a b -> padded a d.
Proof.
  induction 1 as [|x b d H IH|ps b d H IH]; intros a K; [exact K| |constructor; auto]. inversion K; subst; constructor; auto.
Qed.
Lemma padded_in a b n v : padded a b -> In (Def n v) b <-> In (Def n v) a.
Proof. induction 1; cbn; [tauto|rewrite IHpadded; tauto|rewrite IHpadded; intuition discriminate]. Qed.
Lemma padded_split a b : padded a b -> forall before n v after, a = before ++ Def n v :: after -> exists before' after', b = before' ++ Def n v :: after' /\ padded after after'.
Proof.
  induction 1; intros before n v after E.
  - destruct before; discriminate.
  - destruct before as [|y before]; cbn in E; injection E as -> E.
    + exists [], b. subst. auto.
    + destruct (IHpadded _ _ _ _ E) as (b1 & a1 & -> & P). exists (y :: b1), a1. auto.
  - destruct (IHpadded _ _ _ _ E) as (b1 & a1 & -> & P). exists (Code ps :: b1), a1. auto.
Qed.
Lemma padded_valued a b n v : padded a b -> valued a n v -> valued b n v.
Proof.
  intros P (before & after & E & L). destruct (padded_split _ _ P _ _ _ _ E) as (b1 & a1 & -> & Q). exists b1, a1. split; [reflexivity|]. intros w I. apply (L w). apply (padded_in _ _ n w Q). exact I.
Qed.
Lemma padded_stands a b p t : padded a b -> stands_for a p t -> stands_for b p t.
Proof.
  intros P H. destruct H as [t|n v H|n H]; [apply s_lit|apply s_ref; eapply padded_valued; eauto|apply s_undefined]. intros v I. apply (H v). apply (padded_in _ _ n v P). exact I.
Qed.
Lemma padded_means a b ls o : padded a b -> means a ls o -> means b ls o.
Proof.
  intros P H. induction H as [|n v r o H IH|ps os r o F H IH]; constructor; auto. clear -P F. induction F; constructor; eauto using padded_stands.
Qed.
Lemma means_app e a b oa ob : means e a oa -> means e b ob -> means e (a ++ b) (oa ++ ob).
Proof. intros H K. induction H; cbn; [exact K|constructor; auto|]. rewrite <- !app_assoc. cbn. constructor; auto. Qed.
Lemma last_app {X} (a b : list X) d e : b <> [] -> last (a ++ b) d = last b e.
Proof. intros H. induction a as [|x a IH]; cbn; [|rewrite <- IH; destruct (a ++ b) eqn:E; [apply app_eq_nil in E; tauto|reflexivity]]. clear -H. induction b as [|y b IH]; [congruence|]. destruct b; [reflexivity|]. cbn in *. apply IH. discriminate. Qed.
Lemma flat_lines_nil (l : list text) : flat_map (fun x => x ++ [10%Z]) l = [] -> l = [].
Proof. destruct l as [|[|]]; cbn; [auto|discriminate|discriminate]. Qed.
(** the lines of two texts, and perhaps an empty one between them *)
Lemma source_app la lb ta tb : source la ta -> source lb tb -> exists pad, (pad = [] \/ pad = [Code []]) /\ source (la ++ pad ++ lb) (ta ++ 10%Z :: tb).
Proof.
  intros (ts & W & L & T & A1 & A2) (us & W' & L' & T' & B1 & B2).
  assert (P1 : forall a b, ta ++ 10%Z :: tb <> a ++ [47; 42]%Z ++ b) by (apply no_pair; congruence || discriminate || assumption).
  assert (P2 : forall a b, ta ++ 10%Z :: tb <> a ++ [42; 47]%Z ++ b) by (apply no_pair; congruence || discriminate || assumption).
  assert (J : forall vs ls t, Forall2 (Variables_Spec.written alnum) ls vs -> Forall (fun x => ~ In 10%Z x /\ ~ In 13%Z x) vs -> ta ++ [10%Z] = flat_map (fun x => x ++ [10%Z]) vs ->
    t = ta ++ 10%Z :: tb -> (forall a b, t <> a ++ [47; 42]%Z ++ b) -> (forall a b, t <> a ++ [42; 47]%Z ++ b) -> source (ls ++ lb) t).
  { intros vs ls t F G E -> Q1 Q2. exists (vs ++ us). split; [apply Forall2_app; assumption|]. split; [apply Forall_app; auto|]. split; [|split; assumption].
    assert (E' : flat_map (fun x : list Z => x ++ [10%Z]) (vs ++ us) = ta ++ [10%Z] ++ flat_map (fun x => x ++ [10%Z]) us) by (rewrite flat_map_app, app_assoc; f_equal; symmetry; exact E).
    destruct T' as [->|[T' N]].
    - left. exact (eq_sym E').
    - right. split; [|destruct us as [|u us]; [destruct tb; discriminate|]; rewrite (last_app vs (u :: us) [0%Z] [0%Z]); [exact N|discriminate]].
      refine (eq_trans _ (eq_sym E')). cbn. rewrite <- app_assoc. cbn. do 2 f_equal. exact T'. }
  destruct T as [->|[T N]].
  - exists [Code []]. split; [auto|]. rewrite app_assoc. eapply (J (ts ++ [[]]) (la ++ [Code []])); try assumption; [apply Forall2_app; [exact W|]|apply Forall_app; split; [exact L|constructor; [split; intros []|constructor]]|rewrite flat_map_app; reflexivity|reflexivity].
    constructor; [|constructor]. apply (w_code alnum []); [constructor|exact I|]. intros w r _. cbn. destruct w; discriminate.
  - exists []. split; [auto|]. cbn. eapply J; try eassumption. reflexivity.
Qed.
End Lines.

(** *** One sheet after the other *)
Section Sheets.
Variables (alnum : char -> bool) (lower : text -> text) (rnd rnd64 : Q -> Q) (parse_f32 parse_f64 : text -> option Q) (C : Type)
  (colour : text -> res C) (with_alpha : C -> Q -> C) (theme_colour : text -> C) (transparent : C).
Notation sheet_text := (sheet_text alnum lower rnd rnd64 parse_f32 parse_f64 C colour with_alpha theme_colour transparent).
Lemma gap_app a b : gap a -> gap b -> gap (a ++ b).
Proof. unfold gap. intros. apply Forall_app. auto. Qed.
Lemma sheet_gap l t g : gap g -> sheet_text l t -> sheet_text l (g ++ t).
Proof.
  intros G H. destruct H as [g' G'|r t l u R S]; [apply sh_end; auto using gap_app|]. rewrite app_assoc. apply sh_rule; [|exact S].
  destruct R as [sels items g0 s g1 b g2 G0 H1 H2 H3 H4]. rewrite app_assoc. apply r_rule; auto using gap_app.
Qed.
Lemma sheet_app l t l' t' : sheet_text l t -> sheet_text l' t' -> sheet_text (l ++ l') (t ++ t').
Proof. intros H K. induction H as [g G|r t l u R S IH]; cbn; [apply sheet_gap; assumption|]. rewrite <- app_assoc. apply sh_rule; auto. Qed.
End Sheets.

(** *** Where the declarations of a sheet are in several of them *)
Section Places.
Context {V : Type}.
Notation rule := (rule V).
Implicit Types l m : list rule.
Lemma written_nonempty l p ss items : written l p ss items -> exists a r, p = a :: r /\ a < length l.
Proof.
  induction 1 as [i sels items E|p ss items k sels' items' H (a & r & -> & B) E]; [exists i, []; split; [reflexivity|apply nth_error_Some; congruence]|exists a, (r ++ [k]); auto].
Qed.
Lemma written_left l m p ss items : written l p ss items -> written (l ++ m) p ss items.
Proof.
  induction 1 as [i sels items E|p ss items k sels' items' H IH E]; [|eapply written_in; eauto]. apply written_top. rewrite nth_error_app1; [exact E|]. apply nth_error_Some. congruence.
Qed.
Lemma written_right l m a r ss items : written m (a :: r) ss items -> written (l ++ m) (length l + a :: r) ss items.
Proof.
  intros H. remember (a :: r) as p eqn:E. revert a r E. induction H as [i sels items N|p ss items k sels' items' H IH N]; intros a r E.
  - injection E as -> <-. apply written_top. rewrite nth_error_app2 by lia. rewrite Nat.add_comm, Nat.add_sub. exact N.
  - destruct p as [|b p]; [apply written_nonempty in H; destruct H as (? & ? & ? & _); discriminate|]. cbn in E. injection E as -> <-.
    change (length l + a :: p ++ [k]) with ((length l + a :: p) ++ [k]). eapply written_in; [apply IH; reflexivity|exact N].
Qed.
Lemma written_split l m p ss items : written (l ++ m) p ss items -> written l p ss items \/ exists a r, p = length l + a :: r /\ written m (a :: r) ss items.
Proof.
  induction 1 as [i sels items N|p ss items k sels' items' H IH N].
  - destruct (lt_dec i (length l)) as [B|B]; [left; apply written_top; now rewrite nth_error_app1 in N|]. right. exists (i - length l), []. split; [f_equal; lia|]. apply written_top. now rewrite nth_error_app2 in N by lia.
  - destruct IH as [IH|(a & r & -> & IH)]; [left; eapply written_in; eauto|]. right. exists a, (r ++ [k]). split; [reflexivity|]. change (a :: r ++ [k]) with ((a :: r) ++ [k]). eapply written_in; eauto.
Qed.
Lemma in_force_split c l m ch p k d ts : in_force c (l ++ m) ch p k d ts <->
  in_force c l ch p k d ts \/ exists a r, p = length l + a :: r /\ in_force c m ch (a :: r) k d ts.
Proof.
  split.
  - intros (ss & items & is & W & X). apply written_split in W. destruct W as [W|(a & r & -> & W)]; [left; exists ss, items, is; auto|right; exists a, r; split; [reflexivity|exists ss, items, is; auto]].
  - intros [(ss & items & is & W & X)|(a & r & -> & ss & items & is & W & X)]; exists ss, items, is; (split; [|exact X]); [now apply written_left|now apply written_right].
Qed.
Lemma in_force_head c l ch p k d ts : in_force c l ch p k d ts -> exists a r, p = a :: r /\ a < length l.
Proof. intros (ss & items & is & W & _). eapply written_nonempty; exact W. Qed.
Lemma readable_app l m : readable l -> readable m -> readable (l ++ m).
Proof. intros H K p ss items is ts W P. apply written_split in W. destruct W as [W|(a & r & -> & W)]; eauto. Qed.

(** place [p'] of sheet number [i] is place [p] of all *)
Definition at_ (S : list (list rule)) (i : nat) (p' p : list nat) : Prop :=
  exists X a r, nth_error S i = Some X /\ p' = a :: r /\ a < length X /\ p = length (concat (firstn i S)) + a :: r.
Lemma in_force_concat c S ch p k d ts : in_force c (concat S) ch p k d ts <->
  exists i X p', nth_error S i = Some X /\ at_ S i p' p /\ in_force c X ch p' k d ts.
Proof.
  revert p. induction S as [|X S IH]; intros p; cbn [concat].
  - split; [intros H; apply in_force_head in H; destruct H as (a & r & _ & H); cbn in H; lia|intros ([|i] & X & p' & H & _); discriminate].
  - rewrite in_force_split. split.
    + intros [H|(a & r & -> & H)].
      * pose proof H as H'. apply in_force_head in H'. destruct H' as (a & r & -> & B). exists 0, X, (a :: r). split; [reflexivity|]. split; [|exact H]. exists X, a, r. cbn. auto.
      * apply IH in H. destruct H as (i & Y & p' & N & (Y' & b & s & N' & -> & B & E) & H). exists (Datatypes.S i), Y, (b :: s). split; [exact N|]. split; [|exact H]. exists Y', b, s. cbn [nth_error]. split; [exact N'|]. split; [reflexivity|]. split; [exact B|].
        injection E as -> ->. cbn [firstn concat]. rewrite app_length. f_equal. lia.
    + intros (i & Y & p' & N & (Y' & b & s & N' & -> & B & E) & H). destruct i as [|i].
      * left. cbn in *. injection N as <-. subst. exact H.
      * right. cbn [nth_error] in *. exists (length (concat (firstn i S)) + b), s. split; [rewrite E; cbn [firstn concat]; rewrite app_length; f_equal; lia|]. apply IH. exists i, Y, (b :: s). split; [exact N|]. split; [|exact H]. exists Y', b, s. auto.
Qed.
Lemma at_before S i j p' p q' q : at_ S i p' p -> at_ S j q' q -> i < j -> earlier p q.
Proof.
  intros (X & a & r & N & -> & B & ->) (Y & b & s & N' & -> & B' & ->) I. cbn. left.
  assert (E : exists T, firstn j S = firstn i S ++ X :: T).
  { clear -N I. revert j I S N. induction i as [|i IH]; intros [|j] I [|Z S] N; try lia; try discriminate; cbn in *; [injection N as ->; eauto|]. destruct (IH j ltac:(lia) S N) as [T ->]. eauto. }
  destruct E as [T ->]. rewrite concat_app, app_length. cbn. rewrite app_length. lia.
Qed.
Lemma at_same S i p' p q' q : at_ S i p' p -> at_ S i q' q -> (earlier p q <-> earlier p' q') /\ (p = q <-> p' = q').
Proof.
  intros (X & a & r & _ & -> & _ & ->) (Y & b & s & _ & -> & _ & ->). cbn. split; [intuition lia|]. split; intros E; injection E as E1 E2; f_equal; (lia || assumption).
Qed.
Lemma at_any S i X p' c ch k d ts : nth_error S i = Some X -> in_force c X ch p' k d ts -> exists p, at_ S i p' p.
Proof. intros N H. apply in_force_head in H. destruct H as (a & r & -> & B). eexists. exists X, a, r. eauto. Qed.

Lemma written_det l p ss items : written l p ss items -> forall ss' items', written l p ss' items' -> ss' = ss /\ items' = items.
Proof.
  induction 1 as [i sels items N|p ss items k sels1 items1 H IH N]; intros ss' items' K.
  - inversion K as [i' sels' its N' E1 E2 E3|p' ss1 its k' sels' its' H' N' E1 E2 E3]; subst; [split; congruence|]. exfalso. destruct p' as [|a [|b p']]; cbn in E1; try discriminate. apply written_nonempty in H'. destruct H' as (? & ? & ? & _). discriminate.
  - inversion K as [i' sels' its N' E1 E2 E3|p' ss1 its k' sels' its' H' N' E1 E2 E3]; subst.
    + exfalso. destruct p as [|a [|b p]]; cbn in E1; try discriminate. apply written_nonempty in H. destruct H as (? & ? & ? & _). discriminate.
    + apply app_inj_tail in E1. destruct E1 as [-> ->]. destruct (IH _ _ H') as [-> ->]. rewrite N in N'. injection N' as <- <-. auto.
Qed.
Lemma in_force_det c l ch p k d ts d' ts' : in_force c l ch p k d ts -> in_force c l ch p k d' ts' -> d' = d.
Proof. intros (ss & items & is & W & N & _) (ss' & items' & is' & W' & N' & _). destruct (written_det _ _ _ _ W _ _ W') as [-> ->]. congruence. Qed.

Lemma picks_same ss is ts : picks ss is ts -> forall ts', picks ss is ts' -> ts = ts'.
Proof. induction 1; intros ts' K; inversion K; subst; [reflexivity|]. f_equal; [congruence|auto]. Qed.
Lemma in_force_weight c l ch p k d ts d' ts' : in_force c l ch p k d ts -> in_force c l ch p k d' ts' -> weight ts = weight ts'.
Proof.
  intros (ss & items & is & W & N & P & M & F) (ss' & items' & is' & W' & N' & P' & M' & F'). destruct (written_det _ _ _ _ W _ _ W') as [-> ->]. f_equal.
  assert (II : is = is'); [|subst; eapply picks_same; eauto].
  assert (T : forall a b : list nat, length a = length b -> earlier a b \/ a = b \/ earlier b a).
  { induction a as [|x a IH]; intros [|y b] Q; cbn in *; try lia; auto. destruct (lt_eq_lt_dec x y) as [[H|H]|H]; auto. subst. destruct (IH b) as [H|[H|H]]; [lia|auto|subst; auto|auto]. }
  destruct (T is is') as [H|[H|H]]; [rewrite (picks_length _ _ _ P), (picks_length _ _ _ P'); reflexivity|elim (F' _ _ P H M)|exact H|elim (F _ _ P' H M')].
Qed.

Lemma decides_at c S ch s i X p' p k d ts : nth_error S i = Some X -> at_ S i p' p -> decides c X ch s p' k d ts ->
  (forall j Y q' k' d' ts', nth_error S j = Some Y -> j <> i -> in_force c Y ch q' k' d' ts' -> In s (properties_of d') ->
     spec_lt (weight ts') (weight ts) \/ (weight ts' = weight ts /\ j < i)) ->
  decides c (concat S) ch s p k d ts.
Proof.
  intros N P (F & K & B) O. split; [apply in_force_concat; exists i, X, p'; auto|]. split; [exact K|].
  intros q k' d' ts' F' K'. apply in_force_concat in F'. destruct F' as (j & Y & q' & N' & Q & F'). destruct (Nat.eq_dec j i) as [->|D].
  - rewrite N in N'. injection N' as <-. destruct (at_same _ _ _ _ _ _ Q P) as [E1 E2]. destruct (B _ _ _ _ F' K') as [E|[E|(E & [H|[H I]])]].
    + injection E as -> ->. left. f_equal. apply E2. reflexivity.
    + right. left. exact E.
    + right. right. split; [exact E|]. left. apply E1. exact H.
    + right. right. split; [exact E|]. right. split; [apply E2; exact H|exact I].
  - right. destruct (O _ _ _ _ _ _ N' D F' K') as [H|[H I]]; [left; exact H|]. right. split; [exact H|]. left. eapply at_before; eauto.
Qed.
(** two that yield to each other, or are the same *)
Lemma mutual c S ch i j X Y p' q' k k' d d' ts ts' s p q pp qq S' i' j' :
  nth_error S i = Some X -> at_ S i p' p -> in_force c X ch p' k d ts -> In s (properties_of d) ->
  nth_error S' j = Some Y -> at_ S' j q' q -> in_force c Y ch q' k' d' ts' -> In s (properties_of d') ->
  nth_error S' i' = Some X -> at_ S' i' p' pp -> nth_error S j' = Some Y -> at_ S j' q' qq ->
  decides c (concat S) ch s p k d ts -> decides c (concat S') ch s q k' d' ts' ->
  weight ts = weight ts' /\ i' <= j /\ j' <= i /\ (i' = j -> j' = i -> X = Y -> d = d').
Proof.
  intros N P F K N' Q F' K' NI PP NJ QQ (_ & _ & B) (_ & _ & B').
  assert (G : in_force c (concat S) ch qq k' d' ts') by (apply in_force_concat; exists j', Y, q'; auto).
  assert (G' : in_force c (concat S') ch pp k d ts) by (apply in_force_concat; exists i', X, p'; auto).
  specialize (B _ _ _ _ G K'). specialize (B' _ _ _ _ G' K).
  assert (W : weight ts = weight ts' \/ ((qq, k') = (p, k) \/ (pp, k) = (q, k'))).
  { destruct B as [B|[B|[B _]]]; [auto| |auto]. destruct B' as [B'|[B'|[B' _]]]; [auto| |auto]. elim (spec_lt_irrefl _ (spec_lt_trans _ _ _ B B')). }
  assert (SAME : forall T n n2 Z Z' a b u v e e' x x' y y', nth_error T n = Some Z -> at_ T n a u -> in_force c Z ch a x e y -> nth_error T n2 = Some Z' -> at_ T n2 b v -> in_force c Z' ch b x' e' y' ->
     (u, x) = (v, x') -> n = n2 /\ a = b /\ x = x').
  { intros T n n2 Z Z' a b u v e e' x x' y y' N1 A1 _ N2 A2 _ E. injection E as E1 E2. destruct (lt_eq_lt_dec n n2) as [[L|L]|L].
    - pose proof (at_before _ _ _ _ _ _ _ A1 A2 L) as L'. subst. elim (earlier_irrefl _ L').
    - subst n2. split; [reflexivity|]. split; [apply (at_same _ _ _ _ _ _ A1 A2); exact E1|exact E2].
    - pose proof (at_before _ _ _ _ _ _ _ A2 A1 L) as L'. subst. elim (earlier_irrefl _ L'). }
  assert (LE : forall T n n2 Z Z' a b u v e e' x x' y y', nth_error T n = Some Z -> at_ T n a u -> in_force c Z ch a x e y -> nth_error T n2 = Some Z' -> at_ T n2 b v -> in_force c Z' ch b x' e' y' ->
     (u, x) = (v, x') \/ (earlier u v \/ (u = v /\ x < x')) -> n <= n2 /\ (n = n2 -> earlier a b \/ (a = b /\ x <= x'))).
  { intros T n n2 Z Z' a b u v e e' x x' y y' N1 A1 I1 N2 A2 I2 H. destruct (lt_eq_lt_dec n n2) as [[L|L]|L]; [lia| |].
    - subst n2. split; [lia|]. intros _. destruct (at_same _ _ _ _ _ _ A1 A2) as [E1 E2]. destruct H as [E|[E|[E L]]]; [injection E as E -> ; right; split; [now apply E2|lia]|left; now apply E1|right; split; [now apply E2|lia]].
    - exfalso. pose proof (at_before _ _ _ _ _ _ _ A2 A1 L) as L'. destruct H as [E|[E|[E _]]]; [injection E as E _|..]; subst.
      + exact (earlier_irrefl _ L').
      + exact (earlier_irrefl _ (earlier_trans _ _ _ E L')).
      + exact (earlier_irrefl _ L'). }
  assert (WW : weight ts = weight ts').
  { destruct W as [W|[W|W]]; [exact W| |].
    - pose proof W as W2. destruct (SAME _ _ _ _ _ _ _ _ _ _ _ _ _ _ _ NJ QQ F' N P F W2) as (_ & _ & _). injection W as -> ->.
      pose proof (in_force_weight c (concat S) ch p k d ts d' ts') as X1. apply X1; [apply in_force_concat; exists i, X, p'; auto|exact G].
    - injection W as -> ->. pose proof (in_force_weight c (concat S') ch q k' d ts d' ts') as X1. apply X1; [exact G'|apply in_force_concat; exists j, Y, q'; auto]. }
  split; [exact WW|].
  assert (H1 : (pp, k) = (q, k') \/ (earlier pp q \/ (pp = q /\ k < k'))). { destruct B' as [E|[E|[_ E]]]; [auto| |auto]. rewrite WW in E. elim (spec_lt_irrefl _ E). }
  assert (H2 : (qq, k') = (p, k) \/ (earlier qq p \/ (qq = p /\ k' < k))). { destruct B as [E|[E|[_ E]]]; [auto| |auto]. rewrite WW in E. elim (spec_lt_irrefl _ E). }
  destruct (LE _ _ _ _ _ _ _ _ _ _ _ _ _ _ _ NI PP F N' Q F' H1) as [L1 E1]. destruct (LE _ _ _ _ _ _ _ _ _ _ _ _ _ _ _ NJ QQ F' N P F H2) as [L2 E2]. split; [exact L1|]. split; [exact L2|].
  intros I1 J1 XY. subst Y. specialize (E1 I1). specialize (E2 J1).
  assert (PK : p' = q' /\ k = k').
  { destruct E1 as [E1|[E1 K1]], E2 as [E2|[E2 K2]]; subst; [elim (earlier_irrefl _ (earlier_trans _ _ _ E1 E2))|elim (earlier_irrefl _ E1)|elim (earlier_irrefl _ E2)|split; [reflexivity|lia]]. }
  destruct PK as [-> ->]. symmetry. exact (in_force_det _ _ _ _ _ _ _ _ _ F F').
Qed.
End Places.

(** *** The texts in between in another order *)
Section Order.
Context {V : Type}.
Variables (R : text -> list (rule V)) (pre : list text) (app : text).
Definition sheets (order : list text) : list (list (rule V)) := map R (pre ++ order ++ [app]).
Lemma nth_map {X Y} (f : X -> Y) l i y : nth_error (map f l) i = Some y <-> exists x, nth_error l i = Some x /\ f x = y.
Proof.
  revert l. induction i as [|i IH]; intros [|a l]; cbn; split; try discriminate; try (intros (x & H & _); discriminate).
  - intros H. injection H as <-. eauto.
  - intros (x & H & <-). injection H as ->. reflexivity.
  - apply IH.
  - apply IH.
Qed.
(** where a text is: a fixed place, or among those in between *)
Definition fixed (n i : nat) (t : text) : Prop := (nth_error pre i = Some t) \/ (i = length pre + n /\ t = app).
Lemma sheets_in order i t : nth_error (pre ++ order ++ [app]) i = Some t ->
  fixed (length order) i t \/ (length pre <= i < length pre + length order /\ In t order).
Proof.
  intros N. destruct (lt_dec i (length pre)) as [L|L]; [left; left; now rewrite nth_error_app1 in N|]. rewrite nth_error_app2 in N by lia.
  destruct (lt_dec (i - length pre) (length order)) as [M|M].
  - rewrite nth_error_app1 in N by exact M. right. split; [lia|]. eapply nth_error_In; exact N.
  - rewrite nth_error_app2 in N by lia. destruct (i - length pre - length order) as [|[|n]] eqn:E; try discriminate. left. right. cbn in N. injection N as <-. split; [lia|reflexivity].
Qed.
Lemma fixed_in order i t : fixed (length order) i t -> nth_error (pre ++ order ++ [app]) i = Some t /\ (i < length pre \/ length pre + length order <= i).
Proof.
  intros [H|[-> ->]].
  - split; [|left; apply nth_error_Some; congruence]. rewrite nth_error_app1; [exact H|]. apply nth_error_Some. congruence.
  - split; [|right; lia]. rewrite nth_error_app2 by lia. rewrite nth_error_app2 by lia. replace (length pre + length order - length pre - length order) with 0 by lia. reflexivity.
Qed.
Lemma between_in order t : In t order -> exists i, length pre <= i < length pre + length order /\ nth_error (pre ++ order ++ [app]) i = Some t.
Proof.
  intros H. apply In_nth_error in H. destruct H as [n H]. exists (length pre + n). assert (n < length order) by (apply nth_error_Some; congruence). split; [lia|].
  rewrite nth_error_app2 by lia. rewrite nth_error_app1 by lia. replace (length pre + n - length pre) with n by lia. exact H.
Qed.
Lemma sheets_at order i t : nth_error (pre ++ order ++ [app]) i = Some t -> nth_error (sheets order) i = Some (R t).
Proof. intros H. apply nth_map. exists t. auto. Qed.
Lemma at_order order i t p' c ch k d ts : nth_error (pre ++ order ++ [app]) i = Some t -> in_force c (R t) ch p' k d ts -> exists p, at_ (sheets order) i p' p.
Proof. intros N. eapply at_any, sheets_at, N. Qed.
Lemma in_force_sheets order c ch p k d ts : in_force c (concat (sheets order)) ch p k d ts ->
  exists i t p', nth_error (pre ++ order ++ [app]) i = Some t /\ at_ (sheets order) i p' p /\ in_force c (R t) ch p' k d ts.
Proof. intros H. apply in_force_concat in H. destruct H as (i & X & p' & N & A & F). apply nth_map in N. destruct N as (t & N & <-). exists i, t, p'. auto. Qed.

Variables (order order' : list text).
Hypothesis perm : Permutation order order'.
Lemma same_length : length order = length order'.
Proof. apply Permutation_length, perm. Qed.
Lemma same_place t i : nth_error (pre ++ order ++ [app]) i = Some t -> exists i', nth_error (pre ++ order' ++ [app]) i' = Some t.
Proof.
  intros N. apply sheets_in in N. destruct N as [N|[_ N]].
  - rewrite same_length in N. apply fixed_in in N. destruct N as [N _]. eauto.
  - apply (Permutation_in _ perm) in N. apply between_in in N. destruct N as (i' & _ & N). eauto.
Qed.
Lemma none_here c ch s : (forall p k d ts, in_force c (concat (sheets order)) ch p k d ts -> ~ In s (properties_of d)) ->
  forall i t p k d ts, nth_error (pre ++ order ++ [app]) i = Some t -> in_force c (R t) ch p k d ts -> ~ In s (properties_of d).
Proof.
  intros H i t p k d ts N F. destruct (at_order _ _ _ _ _ _ _ _ _ N F) as [q Q]. apply (H q k d ts). apply in_force_concat. exists i, (R t), p. split; [apply sheets_at, N|]. auto.
Qed.
Lemma order_same gives c ch s p k d ts q k' d' ts' v v' : agree gives c ch s R order ->
  decides c (concat (sheets order)) ch s p k d ts -> decides c (concat (sheets order')) ch s q k' d' ts' ->
  In (s, v) (gives d) -> In (s, v') (gives d') -> d = d' \/ v = v'.
Proof.
  intros A D D' G G'. pose proof D as (F & K & _). pose proof D' as (F' & K' & _).
  apply in_force_sheets in F. apply in_force_sheets in F'. destruct F as (i & t & p' & N & P & F), F' as (j & t' & q' & N' & Q & F').
  assert (GO : forall i' j', nth_error (pre ++ order' ++ [app]) i' = Some t -> nth_error (pre ++ order ++ [app]) j' = Some t' ->
    weight ts = weight ts' /\ i' <= j /\ j' <= i /\ (i' = j -> j' = i -> R t = R t' -> d = d')).
  { intros i' j' NI NJ. destruct (at_order _ _ _ _ _ _ _ _ _ NI F) as [pp PP]. destruct (at_order _ _ _ _ _ _ _ _ _ NJ F') as [qq QQ].
    exact (mutual c (sheets order) ch i j (R t) (R t') p' q' k k' d d' ts ts' s p q pp qq (sheets order') i' j' (sheets_at _ _ _ N) P F K (sheets_at _ _ _ N') Q F' K' (sheets_at _ _ _ NI) PP (sheets_at _ _ _ NJ) QQ D D'). }
  pose proof same_length as EL. destruct (sheets_in _ _ _ N) as [FI|[LI MI]], (sheets_in _ _ _ N') as [FJ|[LJ MJ]].
  - left. pose proof FI as FI'. rewrite EL in FI'. apply fixed_in in FI'. destruct FI' as [NI _]. pose proof FJ as FJ'. rewrite <- EL in FJ'. apply fixed_in in FJ'. destruct FJ' as [NJ _].
    destruct (GO i j NI NJ) as (_ & L1 & L2 & E). assert (i = j) by lia. subst j. rewrite N in NJ. injection NJ as <-. auto.
  - exfalso. pose proof FI as FI'. rewrite EL in FI'. apply fixed_in in FI'. destruct FI' as [NI B]. apply (Permutation_in _ (Permutation_sym perm)) in MJ. apply between_in in MJ. destruct MJ as (j' & LJ' & NJ).
    destruct (GO i j' NI NJ) as (_ & L1 & L2 & _). lia.
  - exfalso. pose proof FJ as FJ'. rewrite <- EL in FJ'. apply fixed_in in FJ'. destruct FJ' as [NJ B]. apply (Permutation_in _ perm) in MI. apply between_in in MI. destruct MI as (i' & LI' & NI).
    destruct (GO i' j NI NJ) as (_ & L1 & L2 & _). lia.
  - destruct (list_eq_dec Z.eq_dec t t') as [->|X].
    + left. destruct (GO j i N' N) as (_ & _ & _ & E). auto.
    + right. destruct (same_place _ _ N) as [i' NI]. assert (MJ' : In t' order) by (apply (Permutation_in _ (Permutation_sym perm)); exact MJ). destruct (between_in _ _ MJ') as (j' & _ & NJ).
      destruct (GO i' j' NI NJ) as (W & _). exact (A t t' MI MJ' X _ _ _ _ _ _ _ _ _ _ F F' W G G').
Qed.
End Order.
