(** Lemmas on placeholders. *)
From Coq Require Import String ZArith List Bool Arith Lia.
From Verif Require Import Text_Model Strip_Model Wrap_Model Canvas_Model Canvas_Spec Holder_Model.
From Verif Require Words_Spec Words_Proofs.
From Verif Require Import Wrap_Spec Wrap_Proofs Wrap2_Proofs Holder_Spec.
Import ListNotations.
Open Scope nat_scope.
Notation length := List.length.
Open Scope list_scope.

Lemma pop_snoc : forall l x, pop (l ++ [x]) = Some (l, x).
Proof. induction l as [|y l IH]; intros x; [reflexivity|]. cbn [app pop]. rewrite IH. destruct l; reflexivity. Qed.
Lemma is_nil_no : forall (A : Type) (l : list A), l <> [] -> is_nil l = false.
Proof. intros A [|] H; [congruence|reflexivity]. Qed.

Section P.
Variable gr : text -> list text.
Variable gw : text -> nat.
Hypothesis Hgr : forall t, concat (gr t) = t.
Hypothesis Hne : forall t g, In g (gr t) -> g <> [].
Notation dw := (dw gr gw).
Notation total := (total gw).
Notation cuts := (cuts gr gw).
Notation fills := (fills gr gw).
Notation wrap_loop := (Holder_Model.wrap_loop gr gw).
Notation break_loop := (Holder_Model.break_loop gw).
Notation break_word := (Holder_Model.break_word gr gw).

Local Notation total_app := (@Wrap2_Proofs.total_app gr gw Hgr Hne).
Local Notation total_one := (@Wrap2_Proofs.total_one gr gw Hgr Hne).
Local Notation breaks_width := (@Wrap2_Proofs.breaks_width gr gw Hgr Hne).
Lemma hbreak_loop_spec : forall width gs cur, cur <> [] -> Forall (fun g => g <> []) (cur ++ gs) -> (total cur <= width \/ length cur = 1) ->
  breaks gw width (cur ++ gs) (break_loop width (concat cur) (total cur) gs).
Proof.
  intros width. induction gs as [|g gs IH]; intros cur NE F L; cbn [Holder_Model.break_loop].
  - rewrite app_nil_r in *. rewrite is_nil_no by (apply concat_ne; auto). rewrite <- (app_nil_r cur) at 1. constructor; auto. constructor.
  - assert (C : concat cur <> []) by (apply concat_ne; auto; apply Forall_app in F; apply F).
    rewrite (is_nil_no _ _ C), orb_false_r.
    destruct (Nat.leb_spec (total cur + gw g) width) as [K|K].
    + replace (concat cur ++ g) with (concat (cur ++ [g])) by (rewrite concat_app; cbn; rewrite app_nil_r; auto).
      replace (total cur + gw g) with (total (cur ++ [g])) by (rewrite total_app, total_one; auto).
      replace (cur ++ g :: gs) with ((cur ++ [g]) ++ gs) in * by (rewrite <- app_assoc; auto). apply IH; auto.
      * destruct cur; discriminate.
      * left. rewrite total_app, total_one. lia.
    + constructor; auto.
      replace g with (concat [g]) at 2 by (cbn; rewrite app_nil_r; auto). rewrite <- total_one. apply (IH [g]); auto; try discriminate.
      apply Forall_app in F. apply F.
Qed.
Lemma hbreak_word_spec : forall width w, breaks gw width (gr w) (break_word w width).
Proof.
  intros width w. unfold Holder_Model.break_word. pose proof (Hne w) as N. destruct (gr w) as [|g gs]; [constructor|].
  cbn [Holder_Model.break_loop app is_nil Nat.add]. rewrite orb_true_r.
  assert (F : Forall (fun g => g <> []) ([g] ++ gs)) by (apply Forall_forall; auto).
  replace g with (concat [g]) at 2 by (cbn; rewrite app_nil_r; auto). rewrite <- (total_one g). apply (hbreak_loop_spec width gs [g]); auto. discriminate.
Qed.
Lemma breaks_ne : forall width gs ps, breaks gw width gs ps -> Forall (fun g => g <> []) gs -> Forall (fun p => p <> []) ps /\ (gs <> [] -> ps <> []).
Proof.
  intros width gs ps B. induction B as [|gs rest ps NE L G B IH]; intros F; [split; [constructor|auto]|].
  apply Forall_app in F. split; [constructor; [apply concat_ne; tauto|apply IH; tauto]|discriminate].
Qed.
Lemma gr_ne : forall w, w <> [] -> gr w <> [].
Proof. intros w N E. apply N. rewrite <- (Hgr w), E. reflexivity. Qed.

(** how a word is cut *)
Definition pieces_items (o : option text) (l : list text) : list item :=
  match l with [] => [] | p :: ps => (p, o) :: map (fun q => (q, None)) ps end.
Definition word_items (width : nat) (w : text) : list item :=
  if dw w <=? width then [(w, Some w)]
  else pieces_items (Some w) (break_word w width).
Lemma word_items_cuts : forall width ws, Forall (fun w => w <> []) ws -> cuts width ws (flat_map (word_items width) ws).
Proof.
  intros width ws F. induction F as [|w ws N F IH]; [constructor|]. cbn [flat_map]. unfold word_items at 1.
  destruct (Nat.leb_spec (dw w) width) as [K|K]; [apply cuts_whole; auto|].
  pose proof (hbreak_word_spec width w) as B. destruct (breaks_ne _ _ _ B) as [_ NE]; [apply Forall_forall; intros g; apply Hne|].
  specialize (NE (gr_ne w N)). destruct (break_word w width) as [|p ps]; [congruence|]. cbn [app pieces_items]. apply cuts_pieces; auto.
Qed.

Lemma fills_pieces : forall width (ps : list text) last o items ls,
  fills width ((last, match ps with [] => o | _ => None end) :: items) ls ->
  fills width (pieces_items o (ps ++ [last]) ++ items) (ps ++ ls).
Proof.
  intros width ps last o items ls. revert o. induction ps as [|q r IH]; intros o F; [exact F|].
  cbn [app pieces_items]. destruct r as [|z r].
  - cbn [app map]. apply (fills_line gr gw width q o [] ((last, None) :: items) ls); auto.
  - cbn [app map]. apply (fills_line gr gw width q o [] ((z, None) :: map (fun q => (q, None)) (r ++ [last]) ++ items) ((z :: r) ++ ls)); auto.
    apply (IH None). exact F.
Qed.
Lemma pieces_items_fst : forall o l, map fst (pieces_items o l) = l.
Proof. intros o [|p ps]; [reflexivity|]. cbn [pieces_items map fst]. rewrite map_map. cbn [fst]. now rewrite map_id. Qed.

Definition adds (l : list text) : Prop := spacing_adds gr gw l.

Lemma wrap_loop_fills : forall width words, Forall (fun w => w <> []) words ->
  forall pre, (forall n, adds (pre ++ map fst (flat_map (word_items width) words)) -> fills width (flat_map (word_items width) words) (wrap_loop width [] n words)) /\
  (forall p o ps, p <> [] -> (ps = [] \/ dw (spaced (p :: ps)) <= width) -> Forall (fun q => dw q <= width) ps ->
     adds (pre ++ (p :: ps) ++ map fst (flat_map (word_items width) words)) ->
     fills width ((p, o) :: map (fun q => (q, Some q)) ps ++ flat_map (word_items width) words)
       (wrap_loop width (spaced (p :: ps)) (dw (spaced (p :: ps))) words)).
Proof.
  intros width words F. induction F as [|w words N F IH]; intros pre.
  - split; [intros; constructor|]. intros p o ps Np L1 L2 _. cbn [flat_map Holder_Model.wrap_loop].
    rewrite is_nil_no by (rewrite spaced_cons; destruct p; [congruence|discriminate]).
    apply fills_line; auto. constructor.
  - assert (Begin : forall n pre', adds (pre' ++ map fst (flat_map (word_items width) (w :: words))) ->
      let '(ls, c, m) := begin_line gr gw width n w in fills width (flat_map (word_items width) (w :: words)) (ls ++ wrap_loop width c m words)).
    { intros n pre' A. cbn [flat_map] in *. unfold begin_line. unfold word_items at 1. unfold word_items at 1 in A.
      destruct (Nat.leb_spec (dw w) width) as [K|K].
      - cbn [app map fst] in *. destruct (IH pre') as [_ B]. specialize (B w (Some w) [] N). cbn [map app] in B.
        change (spaced [w]) with w in B. apply B; auto.
      - pose proof (hbreak_word_spec width w) as Br. destruct (breaks_ne _ _ _ Br) as [Fp NE]; [apply Forall_forall; intros g; apply Hne|].
        specialize (NE (gr_ne w N)). set (bw := break_word w width) in *. clearbody bw. destruct (exists_last NE) as (l & x & ->).
        rewrite pop_snoc. apply Forall_app in Fp. destruct Fp as [Fi Fl]. inversion Fl as [|? ? Nx _]; subst.
        destruct (IH (pre' ++ l)) as [_ B].
        apply fills_pieces.
        specialize (B x (match l with [] => Some w | _ => None end) [] Nx). cbn [map app] in B. change (spaced [x]) with x in B. apply B; auto.
        rewrite map_app, pieces_items_fst, <- app_assoc in A. rewrite <- app_assoc. exact A. }
    split.
    + intros n A. cbn [Holder_Model.wrap_loop is_nil]. specialize (Begin n pre A). destruct (begin_line gr gw width n w) as [[ls c] m]. exact Begin.
    + intros p o ps Np L1 L2 A. cbn [Holder_Model.wrap_loop].
      rewrite is_nil_no by (rewrite spaced_cons; destruct p; [congruence|discriminate]).
      destruct (Nat.leb_spec (dw (spaced (p :: ps)) + 1 + dw w) width) as [K|K].
      * assert (Kw : dw w <= width) by lia.
        assert (Ew : word_items width w = [(w, Some w)]) by (unfold word_items; destruct (Nat.leb_spec (dw w) width); [reflexivity|lia]).
        cbn [flat_map] in *. rewrite Ew in *. cbn [app map fst] in A |- *.
        assert (S : dw (spaced ((p :: ps) ++ [w])) = dw (spaced (p :: ps)) + 1 + dw w).
        { apply (A pre (p :: ps) w (map fst (flat_map (word_items width) words))); [|discriminate]. reflexivity. }
        rewrite <- S, <- spaced_snoc by discriminate. cbn [app].
        destruct (IH pre) as [_ B]. specialize (B p o (ps ++ [w]) Np). rewrite map_app in B. cbn [map] in B. rewrite <- app_assoc in B. cbn [app] in B. apply B.
        -- right. change (p :: ps ++ [w]) with ((p :: ps) ++ [w]). lia.
        -- apply Forall_app. auto.
        -- rewrite <- app_assoc. exact A.
      * specialize (Begin 0 (pre ++ p :: ps)). destruct (begin_line gr gw width 0 w) as [[ls c] m].
        apply fills_line; auto.
        -- cbn [flat_map]. unfold word_items at 1. destruct (dw w <=? width); cbn [app]; [exact K|].
           unfold pieces_items. destruct (break_word w width) eqn:Eb; [|exact K]. exfalso.
           pose proof (hbreak_word_spec width w) as Br. destruct (breaks_ne _ _ _ Br) as [_ NE]; [apply Forall_forall; intros g; apply Hne|].
           apply (NE (gr_ne w N)). exact Eb.
        -- apply Begin. rewrite <- app_assoc. exact A.
Qed.

(** consequences of [cuts] and [fills] *)
Lemma fills_ink : forall width items ls, fills width items ls -> ink (concat ls) = ink (concat (map fst items)).
Proof.
  intros width items ls H. induction H as [|p o ps rest ls _ _ _ _ IH]; [reflexivity|].
  cbn [concat map fst]. rewrite map_app, map_map, concat_app, !ink_app, IH. cbn [fst]. rewrite map_id. rewrite app_assoc. f_equal.
  rewrite ink_spaced. cbn [map concat]. f_equal. clear. induction ps; cbn; [reflexivity|]. rewrite ink_app. congruence.
Qed.
Lemma cuts_concat : forall width ws items, cuts width ws items -> concat (map fst items) = concat ws.
Proof.
  intros width ws items H. induction H as [|w ws items _ _ IH|w ws p ps items _ B _ IH]; [reflexivity|cbn; congruence|].
  cbn [map fst concat]. rewrite map_app, map_map, concat_app, IH. cbn [fst]. rewrite map_id, app_assoc. f_equal.
  rewrite <- (Hgr w), <- (breaks_concat _ _ _ _ B). reflexivity.
Qed.
Lemma cuts_width : forall width ws items, cuts width ws items -> pieces_add gr gw ws -> clusters_fit gr gw width ws ->
  Forall (fun i => dw (fst i) <= width) items.
Proof.
  intros width ws items H. induction H as [|w ws items L _ IH|w ws p ps items L B _ IH]; intros PA CF; [constructor|..].
  - inversion CF; subst. constructor; [exact L|]. apply IH; auto. intros x a b c Hx. apply PA. now right.
  - inversion CF; subst. assert (W : Forall (fun p => dw p <= width) (p :: ps)).
    { eapply (breaks_width width (gr w) (p :: ps) B [] w); auto. intros x a b c [<-|[]]. apply PA. now left. }
    inversion W as [|? ? W1 W2]; subst. constructor; [exact W1|]. apply Forall_app. split.
    + apply Forall_forall. intros i I. apply in_map_iff in I. destruct I as (q & <- & I). cbn. rewrite Forall_forall in W2. auto.
    + apply IH; auto. intros x a b c Hx. apply PA. now right.
Qed.
Lemma fills_width : forall width items ls, fills width items ls -> Forall (fun i => dw (fst i) <= width) items -> Forall (fun l => dw l <= width) ls.
Proof.
  intros width items ls H. induction H as [|p o ps rest ls L1 L2 _ _ IH]; intros F; [constructor|].
  inversion F as [|? ? F1 F2]; subst. apply Forall_app in F2. constructor; [|apply IH; tauto].
  destruct L1 as [->|L1]; [exact F1|exact L1].
Qed.

(** nothing is lost *)
Lemma begin_line_ink : forall width n w, w <> [] -> let '(ls, c, m) := begin_line gr gw width n w in concat ls ++ c = w /\ c <> [].
Proof.
  intros width n w N. unfold begin_line. destruct (dw w <=? width); [auto|].
  pose proof (hbreak_word_spec width w) as Br. destruct (breaks_ne _ _ _ Br) as [Fp NE]; [apply Forall_forall; intros g; apply Hne|].
  specialize (NE (gr_ne w N)). apply breaks_concat in Br. set (bw := break_word w width) in *. clearbody bw. destruct (exists_last NE) as (l & x & ->).
  rewrite pop_snoc. rewrite concat_app in Br. cbn in Br. rewrite app_nil_r in Br. rewrite Br, Hgr. split; [reflexivity|].
  apply Forall_app in Fp. destruct Fp as [_ Fl]. now inversion Fl.
Qed.
Lemma wrap_loop_ink : forall width words, Forall (fun w => w <> []) words -> forall cur n,
  ink (concat (wrap_loop width cur n words)) = ink cur ++ ink (concat words).
Proof.
  intros width words F. induction F as [|w words N F IH]; intros cur n; cbn [Holder_Model.wrap_loop].
  - destruct cur; cbn [is_nil concat]; rewrite ?app_nil_r; reflexivity.
  - assert (B : forall m, let '(ls, c, k) := begin_line gr gw width m w in ink (concat (ls ++ wrap_loop width c k words)) = ink (concat (w :: words))).
    { intros m. pose proof (begin_line_ink width m w N) as L. destruct (begin_line gr gw width m w) as [[ls c] k]. destruct L as [L _].
      rewrite concat_app, ink_app, IH, app_assoc, <- ink_app, L. cbn [concat]. now rewrite ink_app. }
    destruct cur as [|ch cur]; cbn [is_nil].
    + specialize (B n). destruct (begin_line gr gw width n w) as [[ls c] k]. exact B.
    + destruct (_ <=? _).
      * rewrite IH. cbn [concat]. change (32%Z :: w) with ([32%Z] ++ w). rewrite !ink_app. rewrite <- app_assoc. reflexivity.
      * specialize (B 0). destruct (begin_line gr gw width 0 w) as [[ls c] k]. cbn [concat]. rewrite ink_app. f_equal. exact B.
Qed.

Lemma spaced_ink : forall ws p, Words_Spec.spaced ws p -> ink p = concat ws /\ Forall (fun w => w <> []) ws.
Proof.
  intros ws p H. assert (S : forall w, Words_Spec.solid w -> ink w = w) by (intros w [_ S]; apply ink_word; exact S).
  induction H as [g B|g w h B W H|g w h ws t B W H Nh _ [IH1 IH2]].
  - split; [apply ink_blank; exact B|constructor].
  - rewrite !ink_app, (ink_blank g B), (ink_blank h H), (S w W). cbn. rewrite app_nil_r. split; [reflexivity|]. repeat constructor. apply W.
  - rewrite !ink_app, (ink_blank g B), (ink_blank h H), (S w W), IH1. split; [reflexivity|]. constructor; [apply W|exact IH2].
Qed.
Lemma paragraphs_split : forall t, paragraphs t (split_char 10%Z t).
Proof.
  intros t. split; [apply split_char_not_nil|]. split; [apply split_char_join|]. apply Forall_forall. intros p. apply split_char_none.
Qed.
Lemma ink_intercalate : forall ps, ink (intercalate [10%Z] ps) = concat (map ink ps).
Proof.
  induction ps as [|p [|q ps] IH]; [reflexivity|cbn; now rewrite app_nil_r|].
  change (intercalate [10%Z] (p :: q :: ps)) with (p ++ [10%Z] ++ intercalate [10%Z] (q :: ps)). rewrite !ink_app, IH. reflexivity.
Qed.
Lemma ink_idem : forall t, ink (ink t) = ink t.
Proof. intros t. unfold ink. induction t as [|c t IH]; [reflexivity|]. cbn. destruct (is_ws c) eqn:E; cbn; [exact IH|]. rewrite E. cbn. now rewrite IH. Qed.
Lemma paragraph_ink : forall width p, ink (concat (wrap_paragraph gr gw width p)) = ink p.
Proof.
  intros width p. unfold wrap_paragraph. destruct p as [|c p]; [reflexivity|]. cbn [is_nil].
  destruct (spaced_ink _ _ (Words_Proofs.split_spaced (c :: p))) as [E F]. rewrite wrap_loop_ink by exact F. rewrite <- E. change (ink []) with (@nil char). cbn [app]. apply ink_idem.
Qed.
Lemma word_wrap_ink : forall t width, ink (concat (word_wrap gr gw t width)) = ink t.
Proof.
  intros t width. destruct (paragraphs_split t) as (_ & E & _). rewrite <- E at 2. rewrite ink_intercalate. clear E. unfold word_wrap.
  induction (split_char 10%Z t) as [|p ps IH]; [reflexivity|]. cbn [flat_map map concat]. rewrite concat_app, ink_app, paragraph_ink. f_equal. exact IH.
Qed.

Lemma paragraph_spec : forall width p, adds (map fst (flat_map (word_items width) (split_ws p))) -> paragraph gr gw width p (wrap_paragraph gr gw width p).
Proof.
  intros width p A. unfold wrap_paragraph, paragraph. destruct p as [|c p]; [left; auto|]. right. split; [discriminate|]. cbn [is_nil].
  pose proof (Words_Proofs.split_spaced (c :: p)) as S. destruct (spaced_ink _ _ S) as [_ F].
  exists (split_ws (c :: p)), (flat_map (word_items width) (split_ws (c :: p))). split; [exact S|]. split; [now apply word_items_cuts|].
  destruct (wrap_loop_fills width _ F []) as [B _]. apply B. exact A.
Qed.
Lemma word_wrap_spec : forall t width, 0 < width -> spaces_add gr gw width t ->
  exists ps lss, paragraphs t ps /\ word_wrap gr gw t width = concat lss /\ Forall2 (paragraph gr gw width) ps lss.
Proof.
  intros t width P A. pose proof (paragraphs_split t) as Q. exists (split_char 10%Z t), (map (wrap_paragraph gr gw width) (split_char 10%Z t)).
  split; [exact Q|]. unfold word_wrap. rewrite Nat.max_l by lia. split; [apply flat_map_concat_map|].
  assert (H : forall l, incl l (split_char 10%Z t) -> Forall2 (paragraph gr gw width) l (map (wrap_paragraph gr gw width) l)).
  { induction l as [|p l IH]; intros I; [constructor|]. cbn [map]. constructor; [|apply IH; intros x X; apply I; now right].
    apply paragraph_spec. pose proof (Words_Proofs.split_spaced p) as S. apply (A _ p (split_ws p) _ Q); [apply I; now left|exact S|].
    apply word_items_cuts. apply (spaced_ink _ _ S). }
  apply H. apply incl_refl.
Qed.
Lemma word_wrap_width : forall t width, 0 < width -> spaces_add gr gw width t -> clusters_ok gr gw width t -> dw [] = 0 ->
  Forall (fun l => dw l <= width) (word_wrap gr gw t width).
Proof.
  intros t width P A C Z. destruct (word_wrap_spec t width P A) as (ps & lss & Q & -> & F).
  assert (C' : forall p, In p ps -> forall ws, Words_Spec.spaced ws p -> pieces_add gr gw ws /\ clusters_fit gr gw width ws) by (intros p I ws S; exact (C ps p ws Q I S)).
  clear Q. induction F as [|p ls ps lss G F IH]; [constructor|]. cbn [concat]. apply Forall_app. split; [|apply IH; intros; apply (C' p0); auto; now right].
  destruct G as [[-> ->]|(_ & ws & items & S & Cu & Fi)]; [constructor; [lia|constructor]|].
  destruct (C' p (or_introl eq_refl) ws S) as [PA CF]. eapply fills_width; eauto. eapply cuts_width; eauto.
Qed.
End P.

Lemma put_lines_stacked : forall ls x y, stacked x y ls (put_lines x y ls).
Proof.
  induction ls as [|l ls IH]; intros x y i; [destruct i; reflexivity|]. destruct i as [|i]; cbn [put_lines nth_error].
  - cbn. now rewrite Z.add_0_r.
  - rewrite (IH x (y + 1)%Z i). destruct (nth_error ls i); [|reflexivity]. cbn [option_map]. f_equal. f_equal. lia.
Qed.
Lemma stacked_in : forall ls x y ps p, stacked x y ls ps -> In p ps -> exists i l, nth_error ls i = Some l /\ p = Put x (y + Z.of_nat i) l false.
Proof.
  intros ls x y ps p S I. apply In_nth_error in I. destruct I as (i & I). rewrite (S i) in I.
  destruct (nth_error ls i) as [l|] eqn:E; [|discriminate]. cbn in I. injection I as <-. eauto.
Qed.
Lemma centre_quot : forall n m : Z, (n <= m)%Z -> centred (Z.max (Z.quot (m - n) 2) 0) n m.
Proof. intros n m L. unfold centred. rewrite Z.quot_div_nonneg by lia. pose proof (Z.div_mod (m - n) 2). pose proof (Z.mod_pos_bound (m - n) 2). lia. Qed.

Section Draw.
Variable gr : text -> list text.
Variable gw : text -> nat.
Notation dw := (dw gr gw).
Notation widest := (widest gr gw).

Lemma widest_block : forall ls, block_width gr gw ls (widest ls).
Proof.
  intros ls. unfold block_width, Holder_Model.widest. induction ls as [|l ls [IH1 IH2]]; cbn [map fold_right].
  - split; [intros l []|left; auto].
  - split.
    + intros x [<-|I]; [lia|]. specialize (IH1 x I). lia.
    + right. destruct (Nat.max_spec (dw l) (fold_right Nat.max 0 (map dw ls))) as [[L E]|[L E]]; rewrite E.
      * destruct IH2 as [[Z _]|(x & I & X)]; [lia|]. exists x. split; [now right|exact X].
      * exists l. split; [now left|reflexivity].
Qed.
End Draw.
