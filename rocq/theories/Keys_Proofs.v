From Coq Require Import String ZArith List Bool Lia.
From Verif Require Import Text_Model Keys_Model Keys_Spec Wrap_Proofs Colour3_Proofs.
Import ListNotations.
Open Scope Z_scope.
Notation length := List.length.
Open Scope list_scope.

Lemma text_eqb_iff : forall a b, text_eqb a b = true <-> a = b.
Proof.
  induction a as [|x a IH]; intros [|y b]; cbn; split; intros H; try discriminate; auto.
  - apply andb_true_iff in H. destruct H as [H1 H2]. apply Z.eqb_eq in H1. apply IH in H2. congruence.
  - injection H as -> ->. rewrite Z.eqb_refl. apply IH. reflexivity.
Qed.
Lemma text_eqb_no : forall a b, text_eqb a b = false <-> a <> b.
Proof. intros a b. rewrite <- text_eqb_iff. destruct (text_eqb a b); intuition congruence. Qed.

(** *** Splitting *)
Lemma split_glue : forall c l, l <> [] -> Forall (fun t => ~ In c t) l -> split_char c (glue c l) = l.
Proof.
  intros c. induction l as [|a l IH]; intros N H; [congruence|]. inversion H; subst.
  destruct l as [|b l]. { apply split_char_one. auto. }
  cbn [glue]. rewrite split_char_cons by auto. f_equal. apply IH; auto. discriminate.
Qed.
Lemma glue_split : forall c t, glue c (split_char c t) = t.
Proof.
  intros c. induction t as [|x t IH]; [reflexivity|]. cbn [split_char]. destruct (x =? c) eqn:E.
  - apply Z.eqb_eq in E. subst x. cbn [glue]. destruct (split_char c t) eqn:S; [destruct (split_char_not_nil c t S)|]. rewrite IH. reflexivity.
  - destruct (split_char c t) as [|p0 l0] eqn:S; [destruct (split_char_not_nil c t S)|].
    destruct l0 as [|q l0]; cbn [glue] in *; rewrite <- IH; reflexivity.
Qed.
Lemma in_glue : forall c x l, In x (glue c l) -> x = c \/ exists w, In w l /\ In x w.
Proof.
  intros c x. induction l as [|a l IH]; intros H; [destruct H|]. destruct l as [|b l].
  - right. exists a. split; [left; reflexivity|exact H].
  - cbn [glue] in H. apply in_app_iff in H. destruct H as [H|[H|H]].
    + right. exists a. split; [left; reflexivity|exact H].
    + left. auto.
    + destruct (IH H) as [E|(w & Hw & Hx)]; [left; exact E|right; exists w; split; [right; exact Hw|exact Hx]].
Qed.

(** *** Trimming *)
Definition blanks (w : text) : Prop := Forall (fun c => is_ws c = true) w.
Lemma trim_start_split : forall t, exists w, blanks w /\ t = w ++ trim_start t.
Proof.
  induction t as [|c t (w & B & E)]; [exists []; split; [constructor|reflexivity]|]. cbn [trim_start]. destruct (is_ws c) eqn:W.
  - exists (c :: w). split; [constructor; auto|]. cbn. congruence.
  - exists []. split; [constructor|reflexivity].
Qed.
Lemma blanks_rev : forall w, blanks w -> blanks (rev w).
Proof. intros w B. apply Forall_rev. exact B. Qed.
Lemma trim_end_split : forall t, exists w, blanks w /\ t = trim_end t ++ w.
Proof.
  intros t. destruct (trim_start_split (rev t)) as (w & B & E). exists (rev w). split; [apply blanks_rev; exact B|].
  unfold trim_end. rewrite <- rev_app_distr, <- E, rev_involutive. reflexivity.
Qed.
Lemma trim_start_app : forall w t, blanks w -> trim_start (w ++ t) = trim_start t.
Proof. intros w t B. induction B as [|c w C B IH]; [reflexivity|]. cbn. rewrite C. exact IH. Qed.
Lemma trim_end_app : forall w t, blanks w -> trim_end (t ++ w) = trim_end t.
Proof. intros w t B. unfold trim_end. rewrite rev_app_distr, trim_start_app by (apply blanks_rev; exact B). reflexivity. Qed.
Lemma trim_app_l : forall w t, blanks w -> trim (w ++ t) = trim t.
Proof. intros w t B. unfold trim. rewrite trim_start_app by exact B. reflexivity. Qed.
Lemma trim_app_r : forall w t, blanks w -> trim (t ++ w) = trim t.
Proof.
  intros w t B. unfold trim. induction t as [|c t IH].
  - cbn [app]. rewrite <- (app_nil_r w), trim_start_app by exact B. reflexivity.
  - cbn [app trim_start]. destruct (is_ws c); [exact IH|]. rewrite app_comm_cons. apply trim_end_app. exact B.
Qed.
Lemma ws_43 : is_ws 43 = false. Proof. reflexivity. Qed.
Lemma split_blank_l : forall w t, blanks w -> map trim (split_char 43 (w ++ t)) = map trim (split_char 43 t).
Proof.
  intros w t B. induction B as [|c w C B IH]; [reflexivity|]. cbn [app split_char].
  destruct (c =? 43) eqn:E; [apply Z.eqb_eq in E; subst c; discriminate|].
  destruct (split_char 43 (w ++ t)) as [|p ps] eqn:S1; [destruct (split_char_not_nil _ _ S1)|].
  destruct (split_char 43 t) as [|q qs] eqn:S2; [destruct (split_char_not_nil _ _ S2)|].
  cbn [map] in *. injection IH as I1 I2. rewrite I2. f_equal. rewrite <- I1. apply (trim_app_l [c]). repeat constructor. exact C.
Qed.
Lemma split_blank_r : forall w t, blanks w -> map trim (split_char 43 (t ++ w)) = map trim (split_char 43 t).
Proof.
  intros w t B. assert (N : ~ In 43 w). { intros I. unfold blanks in B. rewrite Forall_forall in B. specialize (B _ I). discriminate. }
  induction t as [|c t IH].
  - cbn [app]. rewrite (split_char_one 43 w N). cbn [split_char map]. f_equal. rewrite <- (app_nil_l w), trim_app_r by exact B. reflexivity.
  - cbn [app split_char]. destruct (c =? 43). { cbn [map]. rewrite IH. reflexivity. }
    revert IH. destruct (split_char 43 (t ++ w)) as [|p ps] eqn:S1; [destruct (split_char_not_nil _ _ S1)|].
    destruct (split_char 43 t) as [|q qs] eqn:S2; [destruct (split_char_not_nil _ _ S2)|]. intros IH.
    destruct t as [|d t].
    + cbn [app] in S1. rewrite (split_char_one 43 w N) in S1. injection S1 as <- <-. cbn in S2. injection S2 as <- <-.
      cbn [map]. f_equal. apply (trim_app_r w [c]). exact B.
    + (* the first pieces agree up to trailing blanks *)
      clear IH. revert S1 S2. revert p ps q qs c.
      assert (G : forall u p ps q qs, split_char 43 (u ++ w) = p :: ps -> split_char 43 u = q :: qs ->
        (p = q /\ map trim ps = map trim qs) \/ (p = q ++ w /\ ps = [] /\ qs = [])).
      { induction u as [|x u IHu]; intros p ps q qs S1 S2.
        - cbn [app] in S1. rewrite (split_char_one 43 w N) in S1. injection S1 as <- <-. cbn in S2. injection S2 as <- <-. right. auto.
        - cbn [app split_char] in S1, S2. destruct (x =? 43).
          + injection S1 as <- <-. injection S2 as <- <-. left. split; [reflexivity|].
            destruct (split_char 43 (u ++ w)) as [|p' ps'] eqn:T1; [destruct (split_char_not_nil _ _ T1)|].
            destruct (split_char 43 u) as [|q' qs'] eqn:T2; [destruct (split_char_not_nil _ _ T2)|].
            destruct (IHu _ _ _ _ eq_refl eq_refl) as [[-> E]|(-> & -> & ->)]; cbn [map].
            * rewrite E. reflexivity.
            * rewrite (trim_app_r w q' B). reflexivity.
          + destruct (split_char 43 (u ++ w)) as [|p' ps'] eqn:T1; [destruct (split_char_not_nil _ _ T1)|].
            destruct (split_char 43 u) as [|q' qs'] eqn:T2; [destruct (split_char_not_nil _ _ T2)|].
            injection S1 as <- <-. injection S2 as <- <-.
            destruct (IHu _ _ _ _ eq_refl eq_refl) as [[-> E]|(-> & -> & ->)]; [left; auto|right; auto]. }
      intros p ps q qs c S1 S2. destruct (G _ _ _ _ _ S1 S2) as [[-> E]|(-> & -> & ->)]; cbn [map].
      * rewrite E. reflexivity.
      * f_equal. rewrite app_comm_cons. apply trim_app_r. exact B.
Qed.
Lemma split_trim : forall t, map trim (split_char 43 (trim t)) = map trim (split_char 43 t).
Proof.
  intros t. destruct (trim_start_split t) as (w & B & E). destruct (trim_end_split (trim_start t)) as (v & C & F).
  rewrite E at 2. rewrite split_blank_l by exact B.
  transitivity (map trim (split_char 43 (trim_end (trim_start t) ++ v))); [rewrite split_blank_r by exact C; reflexivity|rewrite <- F; reflexivity].
Qed.
Lemma trim_nil_words : forall t, trim t = [] -> filter (fun t => negb (is_nil t)) (map trim (split_char 43 t)) = [].
Proof. intros t E. rewrite <- split_trim, E. reflexivity. Qed.

(** *** Required modifiers *)
Section Tokens.
Definition in_names (l : list text) (w : text) : bool := existsb (text_eqb w) l.
Lemma in_names_iff : forall l w, in_names l w = true <-> In w l.
Proof.
  intros l w. unfold in_names. rewrite existsb_exists. split.
  - intros (x & I & E). apply text_eqb_iff in E. subst. exact I.
  - intros I. exists w. split; [exact I|apply text_eqb_iff; reflexivity].
Qed.
Definition is_mod (w : text) : bool := in_names (ctrl_names ++ shift_names ++ alt_names) w.
Lemma is_mod_iff : forall w, is_mod w = true <-> modifier w.
Proof. intros w. apply in_names_iff. Qed.
Lemma add_token_ctrl : forall r w, r_ctrl (add_token r w) = r_ctrl r || in_names ctrl_names w.
Proof.
  intros r w. unfold add_token, in_names, ctrl_names. cbn [map existsb].
  destruct (text_eqb w (str "ctrl")); [cbn; rewrite orb_true_r; reflexivity|].
  destruct (text_eqb w (str "control")); [cbn; rewrite orb_true_r; reflexivity|]. cbn [orb]. rewrite orb_false_r.
  destruct (text_eqb w (str "shift")); [reflexivity|]. destruct (text_eqb w (str "alt")); [reflexivity|].
  destruct (text_eqb w (str "meta") || text_eqb w (str "super")); reflexivity.
Qed.
Lemma clash : forall (A : Prop) w (s t : string), str s <> str t -> text_eqb w (str s) = true -> text_eqb w (str t) = true -> A.
Proof. intros A w s t N H1 H2. apply text_eqb_iff in H1. apply text_eqb_iff in H2. congruence. Qed.
Ltac clash := match goal with
  | H1 : text_eqb ?w (str ?s) = true, H2 : text_eqb ?w (str ?t) = true |- _ =>
      lazymatch s with t => fail | _ => apply (clash _ w s t); [vm_compute; discriminate|assumption|assumption] end end.
Lemma add_token_spec : forall r w,
  r_shift (add_token r w) = r_shift r || in_names shift_names w /\
  r_alt (add_token r w) = r_alt r || in_names alt_names w /\
  r_key (add_token r w) = if is_mod w then r_key r else Some w.
Proof.
  intros r w. unfold add_token, is_mod, in_names, ctrl_names, alt_names, shift_names. cbn [map existsb app].
  destruct (text_eqb w (str "ctrl")) eqn:E1, (text_eqb w (str "control")) eqn:E2, (text_eqb w (str "shift")) eqn:E3,
    (text_eqb w (str "alt")) eqn:E4, (text_eqb w (str "meta")) eqn:E5, (text_eqb w (str "super")) eqn:E6;
  try clash; cbn; rewrite ?orb_true_r, ?orb_false_r; auto.
Qed.
Definition folded (ws : list text) (r : required) : required := fold_left add_token ws r.
Lemma folded_mods : forall ws r,
  r_ctrl (folded ws r) = r_ctrl r || existsb (in_names ctrl_names) ws /\
  r_shift (folded ws r) = r_shift r || existsb (in_names shift_names) ws /\
  r_alt (folded ws r) = r_alt r || existsb (in_names alt_names) ws.
Proof.
  induction ws as [|w ws IH]; intros r; [cbn; rewrite !orb_false_r; auto|]. cbn [folded fold_left existsb].
  destruct (IH (add_token r w)) as (A & B & C). unfold folded in *. rewrite A, B, C. destruct (add_token_spec r w) as (D & E & _).
  rewrite D, E, add_token_ctrl, !orb_assoc. auto.
Qed.
Lemma folded_key : forall ws r k, r_key (folded ws r) = Some k <->
  (exists b a, ws = b ++ k :: a /\ is_mod k = false /\ forallb is_mod a = true) \/ (forallb is_mod ws = true /\ r_key r = Some k).
Proof.
  induction ws as [|w ws IH]; intros r k.
  - cbn. split; [auto|]. intros [(b & a & E & _)|[_ H]]; [destruct b; discriminate|exact H].
  - change (folded (w :: ws) r) with (folded ws (add_token r w)). rewrite IH. destruct (add_token_spec r w) as (_ & _ & K). rewrite K. cbn [forallb].
    split.
    + intros [(b & a & -> & M & F)|[F E]].
      * left. exists (w :: b), a. auto.
      * destruct (is_mod w) eqn:Mw; [right; auto|]. injection E as <-. left. exists [], ws. auto.
    + intros [(b & a & E & M & F)|[F E]].
      * destruct b as [|x b]; cbn in E; injection E as -> ->.
        { right. rewrite M. auto. } { left. exists b, a. auto. }
      * apply andb_true_iff in F. destruct F as [Fw F]. right. rewrite Fw. auto.
Qed.
End Tokens.

(** *** Key words *)
Lemma lower_same : forall a b, to_ascii_lowercase a = to_ascii_lowercase b <-> same_letter a b.
Proof.
  intros a b. unfold to_ascii_lowercase, same_letter.
  destruct (65 <=? a) eqn:A1, (a <=? 90) eqn:A2, (65 <=? b) eqn:B1, (b <=? 90) eqn:B2; cbn [andb];
  rewrite ?Z.leb_le, ?Z.leb_gt in *; lia.
Qed.
Lemma code_eqb_iff : forall a b, code_eqb a b = true <-> a = b.
Proof.
  intros a b. destruct a, b; cbn; split; intros H; try discriminate; auto.
  - apply Z.eqb_eq in H. congruence. - injection H as ->. apply Z.eqb_refl.
  - apply Nat.eqb_eq in H. congruence. - injection H as ->. apply Nat.eqb_refl.
Qed.
Lemma key_matches_char : forall a k, key_matches (Char a) k = true <-> exists b, k = Char b /\ same_letter a b.
Proof.
  intros a k. destruct k; cbn; split; intros H; try discriminate; try (destruct H as (b & E & _); discriminate).
  - apply Z.eqb_eq in H. exists c. split; [reflexivity|apply lower_same; exact H].
  - destruct H as (b & E & L). injection E as ->. apply Z.eqb_eq. apply lower_same. exact L.
Qed.
Lemma key_matches_other : forall x k, (forall a, x <> Char a) -> (key_matches x k = true <-> k = x).
Proof.
  intros x k N. assert (E : key_matches x k = code_eqb x k) by (destruct x; [destruct (N c eq_refl)|..]; reflexivity).
  rewrite E, code_eqb_iff. intuition.
Qed.
Lemma same_letter_plain : forall a b, (a = 32 \/ a = 92) -> (same_letter a b <-> b = a).
Proof. intros a b H. unfold same_letter. lia. Qed.
Lemma in_key_names : forall w k, (exists n, In (n, k) key_names /\ w = str n) <->
  existsb (fun e => text_eqb w (str (fst e)) && code_eqb (snd e) k) key_names = true.
Proof.
  intros w k. rewrite existsb_exists. split.
  - intros (n & I & ->). exists (n, k). split; [exact I|]. cbn [fst snd]. apply andb_true_iff. split; [apply text_eqb_iff; reflexivity|apply code_eqb_iff; reflexivity].
  - intros ((n & c) & I & E). cbn [fst snd] in E. apply andb_true_iff in E. destruct E as [E1 E2]. apply text_eqb_iff in E1. apply code_eqb_iff in E2.
    subst. exists n. auto.
Qed.
Lemma single_not_named : forall a k, existsb (fun e => text_eqb [a] (str (fst e)) && code_eqb (snd e) k) key_names = false.
Proof.
  intros a k. cbn [existsb key_names fst snd].
  repeat match goal with |- context [text_eqb [a] (str ?s)] =>
    replace (text_eqb [a] (str s)) with false by (cbn; rewrite andb_false_r; reflexivity) end. reflexivity.
Qed.
Lemma named_case : forall w x, (exists n, In (n, x) key_names /\ w = str n) -> length w <> 1%nat ->
  forall k, (existsb (fun e => text_eqb w (str (fst e)) && code_eqb (snd e) k) key_names = true <-> k = x) -> (forall a, x = Char a -> a = 32 \/ a = 92) ->
  (key_matches x k = true <-> names_key w k).
Proof.
  intros w x Hx L k U P. unfold names_key. rewrite in_key_names, U.
  assert (S : (exists a b, w = [a] /\ k = Char b /\ same_letter a b) <-> False). { split; [|tauto]. intros (a & b & -> & _). cbn in L. lia. }
  rewrite S. destruct x as [a| | | | | | | | | | | | |].
  1: { rewrite key_matches_char. specialize (P a eq_refl). split.
    - intros (b & -> & SL). left. apply (same_letter_plain a b P) in SL. congruence.
    - intros [->|[]]. exists a. split; [reflexivity|left; reflexivity]. }
  all: rewrite key_matches_other by (intros; discriminate); tauto.
Qed.
Lemma table_unique : forall n x k, In (n, x) key_names -> (existsb (fun e => text_eqb (str n) (str (fst e)) && code_eqb (snd e) k) key_names = true <-> k = x).
Proof.
  intros n x k I. rewrite <- in_key_names. split; [|intros ->; exists n; auto].
  intros (m & J & E). assert (A : forallb (fun p => forallb (fun q => negb (text_eqb (str (fst p)) (str (fst q))) || code_eqb (snd p) (snd q)) key_names) key_names = true) by reflexivity.
  rewrite forallb_forall in A. specialize (A _ I). rewrite forallb_forall in A. specialize (A _ J). cbn [fst snd] in A.
  apply orb_true_iff in A. destruct A as [A|A]; [apply negb_true_iff, text_eqb_no in A; congruence|]. apply code_eqb_iff in A. auto.
Qed.
Lemma table_shape : forall n x, In (n, x) key_names -> length (str n) <> 1%nat /\ forall a, x = Char a -> a = 32 \/ a = 92.
Proof.
  intros n x I. assert (A : forallb (fun p => negb (Nat.eqb (length (str (fst p))) 1) && match snd p with Char a => (a =? 32) || (a =? 92) | _ => true end) key_names = true) by reflexivity.
  rewrite forallb_forall in A. specialize (A _ I). cbn [fst snd] in A. apply andb_true_iff in A. destruct A as [A B]. split.
  - apply negb_true_iff, Nat.eqb_neq in A. exact A.
  - intros a ->. apply orb_true_iff in B. rewrite !Z.eqb_eq in B. exact B.
Qed.
Lemma table_key : forall n x k, In (n, x) key_names -> (key_matches x k = true <-> names_key (str n) k).
Proof. intros n x k I. destruct (table_shape n x I) as [L P]. apply named_case; auto. exists n. auto. apply table_unique. exact I. Qed.
Lemma parse_key_spec : forall w k, (match parse_key_token w with Some x => key_matches x k | None => false end) = true <-> names_key w k.
Proof.
  intros w k. unfold parse_key_token.
  Local Ltac tab H := apply text_eqb_iff in H; rewrite H; apply table_key; cbn; repeat first [left; reflexivity | right].
  destruct (text_eqb w (str "enter")) eqn:E1; [tab E1|].
  destruct (text_eqb w (str "escape")) eqn:E2; [tab E2|]. destruct (text_eqb w (str "esc")) eqn:E3; [tab E3|]. cbn [orb].
  destruct (text_eqb w (str "tab")) eqn:E4; [tab E4|]. destruct (text_eqb w (str "backtab")) eqn:E5; [tab E5|].
  destruct (text_eqb w (str "space")) eqn:E6; [tab E6|]. destruct (text_eqb w (str "up")) eqn:E7; [tab E7|].
  destruct (text_eqb w (str "down")) eqn:E8; [tab E8|]. destruct (text_eqb w (str "left")) eqn:E9; [tab E9|].
  destruct (text_eqb w (str "right")) eqn:E10; [tab E10|]. destruct (text_eqb w (str "home")) eqn:E11; [tab E11|].
  destruct (text_eqb w (str "end")) eqn:E12; [tab E12|]. destruct (text_eqb w (str "pageup")) eqn:E13; [tab E13|].
  destruct (text_eqb w (str "pagedown")) eqn:E14; [tab E14|]. destruct (text_eqb w (str "backslash")) eqn:E15; [tab E15|].
  unfold names_key. rewrite in_key_names. destruct w as [|a [|b w]].
  - split; [discriminate|]. intros [H|(x & y & E & _)]; discriminate.
  - cbn [orb]. cbv iota. rewrite key_matches_char, single_not_named. split.
    + intros (b & -> & S). right. exists a, b. auto.
    + intros [H|(x & y & E & -> & S)]; [discriminate|]. injection E as ->. exists y. auto.
  - split; [discriminate|]. intros [H|(x & y & E & _)]; [|discriminate]. cbn [existsb key_names fst snd] in H.
    repeat match goal with H0 : text_eqb (a :: b :: w) (str ?s) = false |- _ => rewrite H0 in H; clear H0 end. discriminate H.
Qed.

(** *** Whole bindings *)
Section Main.
Variable lc : char -> text.
Lemma exists_names : forall l ws, existsb (in_names l) ws = true <-> exists w, In w ws /\ In w l.
Proof. intros l ws. rewrite existsb_exists. split; intros (w & I & H); exists w; split; auto; apply in_names_iff; auto. Qed.
Lemma fold_map : forall ws r, fold_left (fun r w => add_token r (flat_map lc w)) ws r = folded (map (flat_map lc) ws) r.
Proof. induction ws as [|w ws IH]; intros r; [reflexivity|]. apply IH. Qed.
Lemma part_spec : forall e a, a <> [] -> Forall word_ok a -> (match_binding_part lc e (trim (glue 43 a)) = true <-> accepts lc e a).
Proof.
  intros e a N W. unfold match_binding_part. rewrite split_trim, split_glue; auto.
  2: { eapply Forall_impl; [|exact W]. intros w [_ H]. exact H. }
  rewrite fold_map. fold (the_words lc a). unfold accepts. set (ws := the_words lc a). cbv zeta.
  destruct (folded_mods ws nothing_required) as (C & S & A). cbn [nothing_required r_ctrl r_shift r_alt orb] in C, S, A.
  set (r := folded ws nothing_required) in *.
  rewrite <- !exists_names. rewrite <- C, <- S, <- A.
  assert (K : forall k, r_key r = Some k <-> exists b a0, ws = b ++ k :: a0 /\ ~ modifier k /\ Forall modifier a0).
  { intros k. unfold r. rewrite folded_key. cbn [nothing_required r_key]. split.
    - intros [(b & a0 & E & M & F)|[_ D]]; [|discriminate]. exists b, a0. split; [exact E|]. split.
      + rewrite <- is_mod_iff. rewrite M. discriminate.
      + rewrite forallb_forall in F. rewrite Forall_forall. intros x I. apply is_mod_iff. auto.
    - intros (b & a0 & E & M & F). left. exists b, a0. split; [exact E|]. split.
      + destruct (is_mod k) eqn:Q; [|reflexivity]. apply is_mod_iff in Q. tauto.
      + rewrite forallb_forall. rewrite Forall_forall in F. intros x I. apply is_mod_iff. auto. }
  assert (G : (match r_key r with Some w => match parse_key_token w with Some x => key_matches x (k_code e) | None => false end | None => false end) = true <->
              exists b k a0, ws = b ++ k :: a0 /\ ~ modifier k /\ Forall modifier a0 /\ names_key k (k_code e)).
  { split.
    - destruct (r_key r) as [w|] eqn:R; [|discriminate]. intros H. apply parse_key_spec in H. destruct (proj1 (K w) eq_refl) as (b & a0 & E & M & F).
      exists b, w, a0. auto.
    - intros (b & k & a0 & E & M & F & Hn). rewrite (proj2 (K k)); [|exists b, a0; auto]. apply parse_key_spec. exact Hn. }
  rewrite <- G. clear G K. destruct (r_key r) as [w|]; [|intuition discriminate].
  destruct (parse_key_token w) as [x|]; [|intuition discriminate].
  destruct (r_ctrl r), (r_shift r), (r_alt r), (k_ctrl e), (k_shift e), (k_alt e), (k_more e); cbn [andb orb negb]; intuition discriminate.
Qed.
Lemma part_blank : forall e t, trim t = [] -> match_binding_part lc e (trim t) = false.
Proof. intros e t E. rewrite E. reflexivity. Qed.
Lemma glue_word_ok : forall a, Forall word_ok a -> ~ In 44 (glue 43 a).
Proof.
  intros a W I. apply in_glue in I. destruct I as [I|(w & I & J)]; [discriminate|]. rewrite Forall_forall in W. destruct (W w I). tauto.
Qed.
Lemma binding_spec : forall e alts, alternatives_ok alts -> (matches_binding lc e (binding_text alts) = true <-> exists a, In a alts /\ accepts lc e a).
Proof.
  intros e alts [N W]. unfold matches_binding, binding_text. rewrite split_glue.
  2: { destruct alts; [congruence|discriminate]. }
  2: { rewrite Forall_map. eapply Forall_impl; [|exact W]. intros a [_ H]. apply glue_word_ok. exact H. }
  rewrite existsb_exists, map_map. rewrite Forall_forall in W. split.
  - intros (t & I & M). apply filter_In in I. destruct I as [I _]. apply in_map_iff in I. destruct I as (a & <- & I).
    exists a. split; [exact I|]. destruct (W a I) as [Na Wa]. apply part_spec; auto.
  - intros (a & I & A). destruct (W a I) as [Na Wa]. exists (trim (glue 43 a)). apply part_spec in A; auto. split; [|exact A].
    apply filter_In. split; [apply in_map_iff; exists a; auto|].
    destruct (trim (glue 43 a)) eqn:T; [|reflexivity]. rewrite <- T, part_blank in A by exact T. discriminate.
Qed.
Lemma every_binding : forall t, exists alts, alternatives_ok alts /\ t = binding_text alts.
Proof.
  intros t. exists (map (split_char 43) (split_char 44 t)). split.
  - split.
    + intros E. apply map_eq_nil in E. exact (split_char_not_nil _ _ E).
    + rewrite Forall_map, Forall_forall. intros p I. split; [apply split_char_not_nil|]. rewrite Forall_forall. intros w J. split.
      * intros K. apply (split_char_none _ _ _ I). rewrite <- (glue_split 43 p). clear I.
        revert w J K. generalize (split_char 43 p). induction l as [|x l IH]; intros w J K; [destruct J|].
        destruct l as [|y l]; [destruct J as [->|[]]; exact K|]. cbn [glue]. apply in_app_iff. destruct J as [->|J]; [left; exact K|right; right; eapply IH; eauto].
      * apply (split_char_none 43 p). exact J.
  - unfold binding_text. rewrite map_map. rewrite (map_ext _ (fun x => x)) by (intros; apply glue_split). rewrite map_id. symmetry. apply glue_split.
Qed.
End Main.
