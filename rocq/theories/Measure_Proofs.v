(** Proofs about automatic container sizes. *)
From Coq Require Import ZArith QArith Qround Qminmax List Bool Lia Lqa.
From Verif Require Import Fraction_Model Fraction_Spec Fraction_Proofs Canvas_Model Layout_Model Layout_Spec Layout_Proofs Column_Proofs Layout_Props Sizes_Spec Sizes_Proofs Arrange_Model Measure_Model Measure_Spec.
Import ListNotations.
Open Scope Z_scope.

Definition sat (n : Z) : Z := Z.min n 65535.
Lemma sadd_sat : forall a b, 0 <= a -> 0 <= b -> sadd (sat a) (sat b) = sat (a + b).
Proof. intros. unfold sadd, sat, u16_max. lia. Qed.
Lemma sat_small : forall a, a <= 65535 -> sat a = a.
Proof. intros. unfold sat. lia. Qed.
Lemma sat_max : forall a b, Z.max (sat a) (sat b) = sat (Z.max a b).
Proof. intros. unfold sat. lia. Qed.
Lemma cells_sat : forall q, (0 <= q)%Q -> cells_u16 q = sat (Qfloor q).
Proof.
  intros q H. unfold cells_u16, clamp_u16, u16_max, sat. rewrite trunc_floor by auto.
  assert (0 <= Qfloor q) by (apply floor_0; auto). lia.
Qed.

Definition nonneg_margins (c : child) : Prop :=
  (0 <= l_mt (ch_style c))%Q /\ (0 <= l_mr (ch_style c))%Q /\ (0 <= l_mb (ch_style c))%Q /\ (0 <= l_ml (ch_style c))%Q /\ 0 <= ch_dw c /\ 0 <= ch_dh c.
Lemma nonneg_margins_of : forall c, nonneg_child c -> nonneg_margins c.
Proof. intros c H. unfold nonneg_child in H. unfold nonneg_margins. tauto. Qed.
Lemma margins_floor : forall c, nonneg_margins c -> 0 <= m_top c /\ 0 <= m_bottom c /\ 0 <= ml c /\ 0 <= mr c.
Proof. intros c (A & B & C & D & _). unfold m_top, m_bottom, ml, mr. repeat split; apply floor_0; auto. Qed.

Lemma capped_range : forall n, 0 <= n -> 0 <= capped n <= 1000.
Proof. intros. unfold capped. destruct (_ =? _); lia. Qed.
Lemma capped_small : forall n, 0 <= n <= 1000 -> capped n = n.
Proof. intros. unfold capped, u16_max. destruct (n =? 65535) eqn:E; lia. Qed.

(** *** A stack of boxes with collapsing margins *)
Fixpoint run (before after size : child -> Z) (t prev : Z) (cs : list child) : Z * Z :=
  match cs with
  | [] => (t, prev)
  | c :: r => run before after size (t + Z.max (before c) prev + size c) (after c) r
  end.
Lemma run_shift : forall before after size cs t prev k,
  run before after size (t + k) prev cs = (fst (run before after size t prev cs) + k, snd (run before after size t prev cs)).
Proof.
  intros b a s cs. induction cs as [|c r IH]; intros t prev k; cbn [run]; auto.
  replace (t + k + Z.max (b c) prev + s c) with ((t + Z.max (b c) prev + s c) + k) by lia. apply IH.
Qed.
Lemma run_ext : forall before after s1 s2 cs t prev, Forall (fun c => s1 c = s2 c) cs ->
  run before after s1 t prev cs = run before after s2 t prev cs.
Proof.
  intros b a s1 s2 cs. induction cs as [|c r IH]; intros t prev H; cbn [run]; auto.
  inversion H as [|x y E R]; subst. rewrite E. apply IH; auto.
Qed.
Lemma run_nonneg : forall before after size cs t prev, 0 <= t -> 0 <= prev ->
  Forall (fun c => 0 <= before c /\ 0 <= after c /\ 0 <= size c) cs ->
  0 <= fst (run before after size t prev cs) /\ 0 <= snd (run before after size t prev cs).
Proof.
  intros b a s cs. induction cs as [|c r IH]; intros t prev T P H; cbn [run]; auto.
  inversion H as [|x y (B & A & S) R]; subst. apply IH; auto; lia.
Qed.

Definition size_h (c : child) : Z := capped (ch_dh c).
Definition size_w (c : child) : Z := capped (ch_dw c).

Lemma shown_cons : forall b c l, shown ((b, c) :: l) = if b then c :: shown l else shown l.
Proof. intros b c l. unfold shown. cbn [filter fst]. destruct b; reflexivity. Qed.

Lemma count_hidden : forall s c, count_child s (false, c) = s.
Proof. reflexivity. Qed.

(** The loop of [calculate_intrinsic_size], after the first child. *)
Lemma loop_rest : forall l s th ph tw pw, m_first s = false -> 0 <= th -> 0 <= ph -> 0 <= tw -> 0 <= pw ->
  m_total_h s = sat th -> m_prev_bottom s = sat ph -> m_last_bottom s = sat ph ->
  m_total_w s = sat tw -> m_prev_right s = sat pw -> m_last_right s = sat pw ->
  Forall nonneg_margins (shown l) ->
  let s' := fold_left count_child l s in
  let rh := run m_top m_bottom size_h th ph (shown l) in
  let rw := run ml mr size_w tw pw (shown l) in
  m_first_top s' = m_first_top s /\ m_first_left s' = m_first_left s /\
  m_total_h s' = sat (fst rh) /\ m_last_bottom s' = sat (snd rh) /\
  m_total_w s' = sat (fst rw) /\ m_last_right s' = sat (snd rw).
Proof.
  induction l as [|[b c] l IH]; intros s th ph tw pw F T P T' P' Eth Epb Elb Etw Epr Elr N.
  - cbn. repeat split; auto.
  - rewrite shown_cons in *. cbn [fold_left]. destruct b.
    + inversion N as [|x y Nc N']; subst. destruct (margins_floor c Nc) as (A1 & A2 & A3 & A4).
      destruct Nc as (B1 & B2 & B3 & B4 & B5 & B6).
      pose proof (capped_range _ B5) as C5. pose proof (capped_range _ B6) as C6.
      cbn [run].
      assert (K : forall t prev m sz, 0 <= t -> 0 <= prev -> 0 <= m -> 0 <= sz <= 1000 ->
        sadd (sadd (sat t) (Z.max (sat m) (sat prev))) sz = sat (t + Z.max m prev + sz)).
      { intros t prev m sz H1 H2 H3 H4. rewrite sat_max, sadd_sat by lia.
        rewrite <- (sat_small sz) at 1 by lia. apply sadd_sat; lia. }
      specialize (IH (count_child s (true, c)) (th + Z.max (m_top c) ph + size_h c) (m_bottom c) (tw + Z.max (ml c) pw + size_w c) (mr c)).
      unfold size_h, size_w in *.
      assert (FT : m_first_top (count_child s (true, c)) = m_first_top s) by (cbn [count_child fst snd negb m_first_top]; rewrite F; reflexivity).
      assert (FL : m_first_left (count_child s (true, c)) = m_first_left s) by (cbn [count_child fst snd negb m_first_left]; rewrite F; reflexivity).
      rewrite FT, FL in IH.
      apply IH; clear IH; try lia; auto.
      * cbn [count_child fst snd negb m_total_h]. rewrite F, Eth, Epb, cells_sat by auto. apply K; auto; lia.
      * cbn [count_child fst snd negb m_prev_bottom]. apply cells_sat; auto.
      * cbn [count_child fst snd negb m_last_bottom]. apply cells_sat; auto.
      * cbn [count_child fst snd negb m_total_w]. rewrite F, Etw, Epr, cells_sat by auto. apply K; auto; lia.
      * cbn [count_child fst snd negb m_prev_right]. apply cells_sat; auto.
      * cbn [count_child fst snd negb m_last_right]. apply cells_sat; auto.
    + rewrite count_hidden. apply IH; auto.
Qed.

(** ... and from the start. *)
Definition stack (before after size : child -> Z) (cs : list child) : Z :=
  match cs with
  | [] => 0
  | c :: r => let x := run before after size (size c) (after c) r in before c + fst x + snd x
  end.
Lemma loop_all : forall l, Forall nonneg_margins (shown l) ->
  let s := fold_left count_child l no_sums in
  sadd (sadd (m_first_top s) (m_total_h s)) (m_last_bottom s) = sat (stack m_top m_bottom size_h (shown l)) /\
  sadd (sadd (m_first_left s) (m_total_w s)) (m_last_right s) = sat (stack ml mr size_w (shown l)).
Proof.
  induction l as [|[b c] l IH]; intros N.
  - cbn. split; reflexivity.
  - rewrite shown_cons in *. cbn [fold_left]. destruct b; [clear IH|rewrite count_hidden; apply IH; auto].
    inversion N as [|x y Nc N']; subst. destruct (margins_floor c Nc) as (A1 & A2 & A3 & A4).
    destruct Nc as (B1 & B2 & B3 & B4 & B5 & B6).
    pose proof (capped_range _ B5) as C5. pose proof (capped_range _ B6) as C6.
    destruct (loop_rest l (count_child no_sums (true, c)) (size_h c) (m_bottom c) (size_w c) (mr c)) as (E1 & E2 & E3 & E4 & E5 & E6); auto;
      try (unfold size_h, size_w; lia).
    + cbn [count_child fst snd negb m_prev_bottom]. apply cells_sat; auto.
    + cbn [count_child fst snd negb m_last_bottom]. apply cells_sat; auto.
    + cbn [count_child fst snd negb m_prev_right]. apply cells_sat; auto.
    + cbn [count_child fst snd negb m_last_right]. apply cells_sat; auto.
    + cbv zeta. rewrite E1, E2, E3, E4, E5, E6. cbn [count_child fst snd negb m_first_top m_first_left m_first no_sums stack].
      rewrite !cells_sat by auto. fold (m_top c) (ml c).
      destruct (run_nonneg m_top m_bottom size_h (shown l) (size_h c) (m_bottom c)) as (P1 & P2); auto.
      { unfold size_h. lia. }
      { rewrite Forall_forall in N' |- *. intros d D. specialize (N' d D). destruct (margins_floor d N'). destruct N' as (?&?&?&?&?&?). repeat split; try tauto. unfold size_h. apply capped_range; auto. }
      destruct (run_nonneg ml mr size_w (shown l) (size_w c) (mr c)) as (P3 & P4); auto.
      { unfold size_w. lia. }
      { rewrite Forall_forall in N' |- *. intros d D. specialize (N' d D). destruct (margins_floor d N'). destruct N' as (?&?&?&?&?&?). repeat split; try tauto. unfold size_w. apply capped_range; auto. }
      rewrite (sadd_sat (m_top c)), (sadd_sat (ml c)), !sadd_sat by lia. split; reflexivity.
Qed.

Lemma loop_max : forall l s, Forall nonneg_margins (shown l) -> 0 <= m_max_w s -> 0 <= m_max_h s ->
  let s' := fold_left count_child l s in
  m_max_w s' = Z.max (m_max_w s) (sat (largest (fun c => ml c + size_w c + mr c) (shown l))) /\
  m_max_h s' = Z.max (m_max_h s) (sat (largest (fun c => m_top c + size_h c + m_bottom c) (shown l))).
Proof.
  induction l as [|[b c] l IH]; intros s N W H.
  - cbn. unfold sat. split; lia.
  - rewrite shown_cons in *. cbn [fold_left]. destruct b; [|rewrite count_hidden; apply IH; auto].
    inversion N as [|x y Nc N']; subst. destruct (margins_floor c Nc) as (A1 & A2 & A3 & A4).
    destruct Nc as (B1 & B2 & B3 & B4 & B5 & B6).
    pose proof (capped_range _ B5) as C5. pose proof (capped_range _ B6) as C6.
    assert (K : forall x y z, 0 <= x <= 1000 -> 0 <= y -> 0 <= z -> sadd (sadd x (sat y)) (sat z) = sat (y + x + z)).
    { intros x y z ? ? ?. rewrite <- (sat_small x) by lia. rewrite !sadd_sat by lia. rewrite (sat_small x) by lia. f_equal. lia. }
    assert (EW : m_max_w (count_child s (true, c)) = Z.max (m_max_w s) (sat (ml c + size_w c + mr c))).
    { cbn [count_child fst snd negb m_max_w]. rewrite !cells_sat by auto. fold (ml c) (mr c). rewrite K; auto. }
    assert (EH : m_max_h (count_child s (true, c)) = Z.max (m_max_h s) (sat (m_top c + size_h c + m_bottom c))).
    { cbn [count_child fst snd negb m_max_h]. rewrite !cells_sat by auto. fold (m_top c) (m_bottom c). rewrite K; auto. }
    destruct (IH (count_child s (true, c)) N') as (E1 & E2); [rewrite EW; lia|rewrite EH; lia|].
    cbv zeta. rewrite E1, E2, EW, EH. unfold largest. cbn [map fold_right]. rewrite <- !sat_max.
    split; lia.
Qed.

Lemma loop_fill : forall l s,
  let s' := fold_left count_child l s in
  m_fill_w s' = m_fill_w s || existsb (fun c => ch_dw c =? 65535) (shown l) /\
  m_fill_h s' = m_fill_h s || existsb (fun c => ch_dh c =? 65535) (shown l).
Proof.
  induction l as [|[b c] l IH]; intros s.
  - cbn. rewrite !orb_false_r. auto.
  - rewrite shown_cons. cbn [fold_left]. destruct b; [|rewrite count_hidden; apply IH].
    destruct (IH (count_child s (true, c))) as (E1 & E2). cbv zeta. rewrite E1, E2.
    cbn [count_child fst snd negb m_fill_w m_fill_h existsb]. unfold u16_max. rewrite <- !orb_assoc. auto.
Qed.

(** *** The size of a container *)
Lemma around_parts : forall st, reasonable st ->
  border_horizontal st + padding_h st = around_width st /\ border_vertical st + padding_v st = around_height st /\
  0 <= border_horizontal st /\ 0 <= border_vertical st /\ 0 <= padding_h st /\ 0 <= padding_v st.
Proof.
  intros st (A & B & C & D & W & H). unfold border_horizontal, border_vertical, padding_h, padding_v, around_width, around_height in *.
  rewrite !cells_sat by auto. unfold b2z, one_if, sat in *.
  pose proof (floor_0 _ A). pose proof (floor_0 _ B). pose proof (floor_0 _ C). pose proof (floor_0 _ D).
  destruct (l_bl st), (l_br st), (l_bt st), (l_bb st); lia.
Qed.
Lemma with_around : forall b p n a, 0 <= b -> 0 <= p -> 0 <= n -> b + p = a -> a <= 65535 -> sadd (sadd (sat n) b) p = sat (a + n).
Proof. intros. unfold sadd, sat, u16_max. lia. Qed.

Lemma largest_nonneg : forall f cs, 0 <= largest f cs.
Proof. intros f cs. unfold largest. induction cs; cbn [map fold_right]; lia. Qed.
Lemma largest_ext : forall f g cs, Forall (fun c => f c = g c) cs -> largest f cs = largest g cs.
Proof. intros f g cs H. unfold largest. induction H as [|c r E R IH]; cbn [map fold_right]; [reflexivity|rewrite E, IH; reflexivity]. Qed.

Lemma stack_nonneg : forall before after size cs, Forall (fun c => 0 <= before c /\ 0 <= after c /\ 0 <= size c) cs -> 0 <= stack before after size cs.
Proof.
  intros b a s cs H. destruct H as [|c r (B & A & S) R]; cbn [stack]; [lia|].
  destruct (run_nonneg b a s r (s c) (a c)); auto. lia.
Qed.
Lemma stack_ext : forall before after s1 s2 cs, Forall (fun c => s1 c = s2 c) cs -> stack before after s1 cs = stack before after s2 cs.
Proof. intros b a s1 s2 cs H. destruct H as [|c r E R]; cbn [stack]; [reflexivity|]. rewrite E, (run_ext b a s1 s2) by auto. reflexivity. Qed.

Lemma no_fill : forall f cs, Forall (fun c => f c <= 1000) cs -> existsb (fun c : child => f c =? 65535) cs = false.
Proof. intros f cs H. induction H as [|c r E R IH]; cbn [existsb]; [reflexivity|]. rewrite IH, orb_false_r. apply Z.eqb_neq. lia. Qed.
Lemma some_fill : forall f (cs : list child) c, In c cs -> f c = 65535 -> existsb (fun c => f c =? 65535) cs = true.
Proof. intros f cs c I E. apply existsb_exists. exists c. split; auto. apply Z.eqb_eq; auto. Qed.

Definition along_h (k : layout_kind) : bool := match k with LVertical => true | _ => false end.
Definition along_w (k : layout_kind) : bool := match k with LHorizontal => true | _ => false end.
Lemma size_nonneg_h : forall cs, Forall nonneg_margins cs -> Forall (fun c => 0 <= m_top c /\ 0 <= m_bottom c /\ 0 <= size_h c) cs.
Proof. intros cs N. eapply Forall_impl; [|exact N]. intros c H. destruct (margins_floor c H). destruct H as (?&?&?&?&?&?). repeat split; try tauto. unfold size_h. apply capped_range; auto. Qed.
Lemma size_nonneg_w : forall cs, Forall nonneg_margins cs -> Forall (fun c => 0 <= ml c /\ 0 <= mr c /\ 0 <= size_w c) cs.
Proof. intros cs N. eapply Forall_impl; [|exact N]. intros c H. destruct (margins_floor c H) as (?&?&?&?). destruct H as (?&?&?&?&?&?). repeat split; try tauto. unfold size_w. apply capped_range; auto. Qed.

Lemma intrinsic_height_is : forall st k l, reasonable st -> Forall nonneg_margins (shown l) ->
  snd (intrinsic_size st k l) =
    if existsb (fun c => ch_dh c =? 65535) (shown l) then 65535
    else sat (around_height st + if along_h k then stack m_top m_bottom size_h (shown l) else largest (fun c => m_top c + size_h c + m_bottom c) (shown l)).
Proof.
  intros st k l R N. destruct (around_parts st R) as (EW & EH & P1 & P2 & P3 & P4). assert (R' := R). destruct R' as (_ & _ & _ & _ & RW & RH).
  destruct l as [|x l].
  - cbn [intrinsic_size snd shown map filter existsb stack along_h]. change (largest _ []) with 0. destruct (along_h k); rewrite EH; unfold sat; lia.
  - cbn [intrinsic_size snd]. set (l' := x :: l) in *. destruct (loop_fill l' no_sums) as (_ & ->). cbn [m_fill_h no_sums orb].
    destruct (existsb _ _); [reflexivity|].
    destruct (loop_all l' N) as (E & _). destruct (loop_max l' no_sums N) as (_ & E'); [cbn; lia|cbn; lia|]. cbv zeta in E, E'.
    pose proof (stack_nonneg _ _ _ _ (size_nonneg_h _ N)). pose proof (largest_nonneg (fun c => m_top c + size_h c + m_bottom c) (shown l')).
    destruct k; cbn [along_h snd]; rewrite ?E, ?E'; change (m_max_h no_sums) with 0; rewrite ?Z.max_r by (unfold sat; lia); apply with_around; auto.
Qed.
Lemma intrinsic_width_is : forall st k l, reasonable st -> Forall nonneg_margins (shown l) ->
  fst (intrinsic_size st k l) =
    if existsb (fun c => ch_dw c =? 65535) (shown l) then 65535
    else sat (around_width st + if along_w k then stack ml mr size_w (shown l) else largest (fun c => ml c + size_w c + mr c) (shown l)).
Proof.
  intros st k l R N. destruct (around_parts st R) as (EW & EH & P1 & P2 & P3 & P4). assert (R' := R). destruct R' as (_ & _ & _ & _ & RW & RH).
  destruct l as [|x l].
  - cbn [intrinsic_size fst shown map filter existsb stack along_w]. change (largest _ []) with 0. destruct (along_w k); rewrite EW; unfold sat; lia.
  - cbn [intrinsic_size fst]. set (l' := x :: l) in *. destruct (loop_fill l' no_sums) as (-> & _). cbn [m_fill_w no_sums orb].
    destruct (existsb _ _); [reflexivity|].
    destruct (loop_all l' N) as (_ & E). destruct (loop_max l' no_sums N) as (E' & _); [cbn; lia|cbn; lia|]. cbv zeta in E, E'.
    pose proof (stack_nonneg _ _ _ _ (size_nonneg_w _ N)). pose proof (largest_nonneg (fun c => ml c + size_w c + mr c) (shown l')).
    destruct k; cbn [along_w fst]; rewrite ?E, ?E'; change (m_max_w no_sums) with 0; rewrite ?Z.max_r by (unfold sat; lia); apply with_around; auto.
Qed.

Lemma own_auto : forall o n, automatic o -> own_or o n = n.
Proof. intros [s|] n H; cbn in *; [rewrite H|]; reflexivity. Qed.

(** *** Placed children *)
Fixpoint chain (lo hi : placement -> Z) (before after : child -> Z) (l : list (child * placement)) : Prop :=
  match l with
  | (c, p) :: r => match r with (d, q) :: _ => lo q = hi p + Z.max (after c) (before d) | [] => True end /\ chain lo hi before after r
  | [] => True
  end.
Lemma chain_nth : forall lo hi before after cs ps,
  (forall i p q c d, nth_error ps i = Some p -> nth_error ps (S i) = Some q -> nth_error cs i = Some c -> nth_error cs (S i) = Some d -> lo q = hi p + Z.max (after c) (before d)) ->
  chain lo hi before after (combine cs ps).
Proof.
  intros lo hi b a cs. induction cs as [|c cs IH]; intros [|p ps] H; cbn [combine chain]; auto.
  split.
  - destruct cs as [|d cs], ps as [|q ps]; cbn [combine]; auto. apply (H 0%nat p q c d); reflexivity.
  - apply IH. intros i p' q' c' d' P Q C D. apply (H (S i) p' q' c' d'); auto.
Qed.
Lemma chain_end : forall lo hi before after size cs ps c p,
  (forall c p, In (c, p) (combine cs ps) -> hi p = lo p + size c) ->
  chain lo hi before after ((c, p) :: combine cs ps) ->
  fold_left (fun _ x => hi (snd x) + after (fst x)) (combine cs ps) (hi p + after c)
  = let r := run before after size (hi p) (after c) (firstn (length ps) cs) in fst r + snd r.
Proof.
  intros lo hi b a sz cs. induction cs as [|d cs IH]; intros ps c p S C.
  - destruct ps; reflexivity.
  - destruct ps as [|q ps]; cbn [combine fold_left fst snd run firstn length]; [reflexivity|].
    cbn [combine] in C. destruct C as (E & C).
    rewrite (IH ps d q); [|intros; apply S; cbn [combine]; right; auto|exact C].
    rewrite (S d q) by (left; reflexivity). rewrite E. cbv zeta.
    replace (hi p + Z.max (a c) (b d) + sz d) with (hi p + Z.max (b d) (a c) + sz d) by lia. reflexivity.
Qed.

Lemma chain_bounds : forall lo hi before after size cs ps e,
  Forall (fun c => 0 <= before c /\ 0 <= after c /\ 0 <= size c) cs ->
  (forall c p, In (c, p) (combine cs ps) -> hi p = lo p + size c) ->
  chain lo hi before after (combine cs ps) ->
  forall c p, In (c, p) (combine cs ps) ->
  (match combine cs ps with (d, q) :: _ => lo q - before d | [] => 0 end) <= lo p - before c /\
  hi p + after c <= fold_left (fun _ x => hi (snd x) + after (fst x)) (combine cs ps) e.
Proof.
  intros lo hi b a sz cs. induction cs as [|d cs IH]; intros ps e N S C c p I; [contradiction|].
  destruct ps as [|q ps]; [contradiction|]. cbn [combine] in *. inversion N as [|x y (B & A & Z0) N']; subst.
  destruct C as (E & C). cbn [fold_left fst snd].
  assert (S' : forall c p, In (c, p) (combine cs ps) -> hi p = lo p + sz c) by (intros; apply S; right; auto).
  assert (Hq : hi q = lo q + sz d) by (apply S; left; reflexivity).
  destruct I as [I|I].
  - injection I as -> ->. split; [lia|].
    destruct cs as [|c1 cs]; [destruct ps; cbn; lia|]. destruct ps as [|q1 ps]; [cbn; lia|].
    cbn [combine] in *. inversion N' as [|x y (B1 & A1 & Z1) N'']; subst.
    destruct (IH (q1 :: ps) (hi p + a c) N' S' C c1 q1) as (_ & U); [left; reflexivity|]. cbn [combine] in U.
    assert (hi q1 = lo q1 + sz c1) by (apply S'; left; reflexivity). lia.
  - destruct (IH ps (hi q + a d) N' S' C c p I) as (L & U). split; [|exact U].
    destruct cs as [|c1 cs]; [contradiction|]. destruct ps as [|q1 ps]; [contradiction|]. cbn [combine] in *. lia.
Qed.

Lemma forall2_combine : forall A B (P : A -> B -> Prop) l m, Forall2 P l m -> forall x y, In (x, y) (combine l m) -> P x y.
Proof. intros A B P l m H. induction H as [|a b l m E H IH]; intros x y I; [contradiction|]. destruct I as [I|I]; [injection I as -> ->; auto|auto]. Qed.

Lemma whole_eq : forall q, whole q -> (q == inject_Z (Qfloor q))%Q.
Proof. intros q (z & E). rewrite E at 1. rewrite (Qfloor_proper _ _ E), Qfloor_Z. reflexivity. Qed.

Lemma column_chain : forall cs a v, Forall nonneg_child cs -> nonneg_region a -> nonneg_viewport v -> Forall whole_vertical_margins cs ->
  chain p_top p_bottom m_top m_bottom (combine cs (vertical_arrange cs a v)).
Proof.
  intros cs a v N A V W. apply chain_nth. intros i p q c d P Q C D.
  rewrite Forall_forall in W. destruct (W c) as (_ & Wc); [eapply nth_error_In; eauto|]. destruct (W d) as (Wd & _); [eapply nth_error_In; eauto|].
  apply (C29_column_gap_whole cs a v i p q c d N A V P Q C D); apply whole_eq; auto.
Qed.
Lemma row_chain : forall cs a v, Forall nonneg_child cs ->
  chain p_left p_right ml mr (combine cs (horizontal_arrange cs a v)).
Proof.
  intros cs a v N. apply chain_nth. intros i p q c d P Q C D.
  rewrite (C29_row_gap cs a v i p q c d P Q C D). rewrite Forall_forall in N.
  assert (Nc := N c (nth_error_In _ _ C)). assert (Nd := N d (nth_error_In _ _ D)).
  unfold m_right, m_left, mr, ml. rewrite !trunc_floor; auto; apply nonneg_margins_of; auto.
Qed.
Lemma column_first : forall c cs a v, whole_vertical_margins c -> exists p ps, vertical_arrange (c :: cs) a v = p :: ps /\ length ps = length cs /\ p_top p = rg_y a + m_top c.
Proof.
  intros c cs a v (W & _). unfold vertical_arrange. cbn [col_place]. eexists. eexists. split; [reflexivity|]. split; [apply col_place_length|].
  unfold p_top. cbn [pl_region rg_y]. unfold m_top, qz.
  assert (E : (inject_Z (rg_y a) + l_mt (ch_style c) == inject_Z (rg_y a + Qfloor (l_mt (ch_style c))))%Q).
  { rewrite inject_Z_plus. apply Qplus_inj_l. apply whole_eq; auto. }
  rewrite (Qfloor_proper _ _ E), Qfloor_Z. reflexivity.
Qed.
Lemma row_first : forall c cs a v, nonneg_child c -> exists p ps, horizontal_arrange (c :: cs) a v = p :: ps /\ length ps = length cs /\ p_left p = rg_x a + ml c.
Proof.
  intros c cs a v N. pose proof (horizontal_length (c :: cs) a v) as L. destruct (horizontal_arrange (c :: cs) a v) as [|p ps] eqn:E; [discriminate L|].
  exists p, ps. split; auto. split; [cbn in L; lia|].
  rewrite (C29_row_start c cs a v p) by (rewrite E; reflexivity). unfold m_left, ml. rewrite trunc_floor; auto. apply nonneg_margins_of; auto.
Qed.

Lemma column_end : forall cs a v, Forall nonneg_child cs -> nonneg_region a -> nonneg_viewport v -> Forall whole_vertical_margins cs ->
  Forall2 gets_height cs (vertical_arrange cs a v) ->
  end_below (rg_y a) cs (vertical_arrange cs a v) = rg_y a + stack m_top m_bottom ch_dh cs.
Proof.
  intros cs a v N A V W G. pose proof (column_chain cs a v N A V W) as C. pose proof (forall2_combine _ _ _ _ _ G) as G'.
  destruct cs as [|c cs]; [unfold end_below; cbn; lia|].
  inversion W as [|x y Wc W']; subst.
  destruct (column_first c cs a v Wc) as (p & ps & E & L & T). rewrite E in *. unfold end_below. cbn [combine fold_left fst snd] in *.
  assert (Hp : p_bottom p = p_top p + ch_dh c). { unfold p_bottom. fold (p_top p) (p_height p). f_equal. apply (G' c p). left; reflexivity. }
  rewrite (chain_end p_top p_bottom m_top m_bottom ch_dh cs ps c p); auto.
  2:{ intros d q I. unfold p_bottom. fold (p_top q) (p_height q). f_equal. apply (G' d q). right; exact I. }
  rewrite L, firstn_all. cbn [stack]. rewrite Hp, T.
  replace (rg_y a + m_top c + ch_dh c) with (ch_dh c + (rg_y a + m_top c)) by lia. rewrite run_shift. cbn [fst snd]. lia.
Qed.
Lemma row_end : forall cs a v, Forall nonneg_child cs ->
  Forall2 gets_width cs (horizontal_arrange cs a v) ->
  end_right (rg_x a) cs (horizontal_arrange cs a v) = rg_x a + stack ml mr ch_dw cs.
Proof.
  intros cs a v N G. pose proof (row_chain cs a v N) as C. pose proof (forall2_combine _ _ _ _ _ G) as G'.
  destruct cs as [|c cs]; [unfold end_right; cbn; lia|].
  inversion N as [|x y Nc N']; subst.
  destruct (row_first c cs a v Nc) as (p & ps & E & L & T). rewrite E in *. unfold end_right. cbn [combine fold_left fst snd] in *.
  assert (Hp : p_right p = p_left p + ch_dw c). { unfold p_right. fold (p_left p) (p_width p). f_equal. apply (G' c p). left; reflexivity. }
  rewrite (chain_end p_left p_right ml mr ch_dw cs ps c p); auto.
  2:{ intros d q I. unfold p_right. fold (p_left q) (p_width q). f_equal. apply (G' d q). right; exact I. }
  rewrite L, firstn_all. cbn [stack]. rewrite Hp, T.
  replace (rg_x a + ml c + ch_dw c) with (ch_dw c + (rg_x a + ml c)) by lia. rewrite run_shift. cbn [fst snd]. lia.
Qed.

(** *** When children get the sizes they desire *)
Lemma col_place_gets : forall l u first prev y a v, Forall nonneg_child l -> Forall whole_vertical_margins l -> Forall plain_height l ->
  whole y -> whole prev -> Forall2 gets_height l (col_place u first prev y a v l).
Proof.
  induction l as [|c l IH]; intros u first prev y a v N W P Y Pv; cbn [col_place]; constructor.
  - assert (Nc := Forall_inv N). assert (Wc := Forall_inv W). assert (Pc := Forall_inv P).
    assert (B : (box_height u c a v == inject_Z (ch_dh c))%Q).
    { destruct Pc as ((L1 & L2) & NF & H). unfold box_height. rewrite L1, L2. unfold reduce_height, raw_height, is_fill.
      assert (F : (ch_dh c =? u16_max) = false) by (apply Z.eqb_neq; exact NF).
      destruct (l_height (ch_style c)) as [s|] eqn:E.
      - destruct (s_unit s); try contradiction.
        + destruct H as (CB & H). unfold apply_box_sizing_height, qz. rewrite CB, H, trunc_floor; [reflexivity|].
          unfold nonneg_child in Nc. rewrite E in Nc. cbn in Nc. tauto.
        + unfold intrinsic_height, qz. rewrite H. reflexivity.
      - rewrite F. unfold qz. reflexivity. }
    assert (Y' : whole (y + (if first then l_mt (ch_style c) else Qmax (l_mt (ch_style c) - prev) 0))%Q).
    { destruct Y as (yz & Y), Pv as (pz & Pv), Wc as ((mz & M) & _). destruct first.
      - exists (yz + mz). rewrite Y, M, inject_Z_plus. reflexivity.
      - destruct (Qmax_case' (l_mt (ch_style c) - prev) 0) as [(E & _) | (E & _)].
        + exists (yz + (mz - pz)). rewrite Y, E, M, Pv. unfold Z.sub. rewrite !inject_Z_plus, inject_Z_opp. reflexivity.
        + exists yz. rewrite Y, E. ring. }
    unfold gets_height, p_height. cbn [pl_region rg_h]. destruct Y' as (z & Z0).
    assert (E2 : (y + (if first then l_mt (ch_style c) else Qmax (l_mt (ch_style c) - prev) 0) + box_height u c a v == inject_Z (z + ch_dh c))%Q).
    { rewrite B, Z0, inject_Z_plus. reflexivity. }
    rewrite (Qfloor_proper _ _ E2), (Qfloor_proper _ _ Z0), !Qfloor_Z. unfold nonneg_child in Nc. lia.
  - assert (Nc := Forall_inv N). assert (Wc := Forall_inv W). assert (Pc := Forall_inv P). assert (N' := Forall_inv_tail N). assert (W' := Forall_inv_tail W). assert (P' := Forall_inv_tail P). apply IH; auto; [|apply Wc].
    assert (B : whole (box_height u c a v)).
    { destruct Pc as ((L1 & L2) & NF & H). unfold box_height. rewrite L1, L2. unfold reduce_height, raw_height, is_fill.
      assert (F : (ch_dh c =? u16_max) = false) by (apply Z.eqb_neq; exact NF).
      destruct (l_height (ch_style c)) as [s|] eqn:E.
      - destruct (s_unit s); try contradiction; eexists; reflexivity.
      - rewrite F. eexists; reflexivity. }
    destruct Y as (yz & Y), Pv as (pz & Pv), Wc as ((mz & M) & (bz & Mb)), B as (hz & B). destruct first.
    + exists (yz + mz + hz + bz). rewrite Y, M, B, Mb, !inject_Z_plus. reflexivity.
    + destruct (Qmax_case' (l_mt (ch_style c) - prev) 0) as [(E & _) | (E & _)].
      * exists (yz + (mz - pz) + hz + bz). rewrite Y, E, M, Pv, B, Mb. unfold Z.sub. rewrite !inject_Z_plus, inject_Z_opp. reflexivity.
      * exists (yz + hz + bz). rewrite Y, E, B, Mb, !inject_Z_plus. ring.
Qed.
Lemma column_gets : forall cs a v, Forall nonneg_child cs -> Forall whole_vertical_margins cs -> Forall plain_height cs ->
  Forall2 gets_height cs (vertical_arrange cs a v).
Proof. intros. apply col_place_gets; auto; [exists (rg_y a)|exists 0]; reflexivity. Qed.

Lemma plain_hwidth : forall c a v, nonneg_child c -> plain_width c -> hwidth_of a v c = HFixed (frac_of_int (ch_dw c)).
Proof.
  intros c a v N (_ & NF & H). unfold hwidth_of, auto_width.
  assert (F : (ch_dw c =? u16_max) = false) by (apply Z.eqb_neq; exact NF). rewrite F.
  destruct (l_width (ch_style c)) as [s|] eqn:E; [|reflexivity].
  destruct (s_unit s); try contradiction; [|reflexivity].
  destruct H as (CB & H). unfold apply_box_sizing_width. rewrite CB, H, trunc_floor; [reflexivity|].
  unfold nonneg_child in N. rewrite E in N. cbn in N. tauto.
Qed.

Lemma fixed_pass_ints : forall cs a v rem, canonical rem -> (value rem == 0)%Q -> Forall nonneg_child cs -> Forall plain_width cs ->
  fixed_pass rem (map (hwidth_of a v) cs) = map (fun c => Some (ch_dw c)) cs.
Proof.
  intros cs a v. induction cs as [|c cs IH]; intros rem C V N P; cbn [map fixed_pass]; [reflexivity|].
  rewrite plain_hwidth by (eapply Forall_inv; eauto).
  assert (Ci : canonical (frac_of_int (ch_dw c))) by apply frac_new_canonical.
  assert (Cr : canonical (frac_add (frac_of_int (ch_dw c)) rem)) by apply frac_new_canonical.
  assert (E : (value (frac_add (frac_of_int (ch_dw c)) rem) == inject_Z (ch_dw c))%Q).
  { rewrite (frac_add_value _ _ Ci C), value_of_int, V. ring. }
  f_equal.
  - rewrite frac_floor_value by auto. rewrite (Qfloor_proper _ _ E), Qfloor_Z. reflexivity.
  - apply IH; [apply frac_new_canonical| |eapply Forall_inv_tail; eauto|eapply Forall_inv_tail; eauto].
    rewrite (frac_fract_value _ Cr), (Qfloor_proper _ _ E), Qfloor_Z, E. ring.
Qed.
Lemma row_gets : forall cs a v, Forall nonneg_child cs -> Forall plain_width cs -> Forall2 gets_width cs (horizontal_arrange cs a v).
Proof.
  intros cs a v N P.
  assert (L : Forall no_width_limits cs) by (eapply Forall_impl; [|exact P]; intros c H; apply H).
  assert (E : map p_width (horizontal_arrange cs a v) = map ch_dw cs).
  { rewrite horizontal_widths by auto. rewrite row_widths_merge, fixed_pass_ints; auto using canonical_zero; [|apply value_zero].
    set (ws := fr_pass _ _). assert (K : length ws = length cs) by (unfold ws; rewrite fr_pass_length, map_length; reflexivity).
    clearbody ws. clear -K. revert ws K. induction cs as [|c cs IH]; intros [|w ws] K; try discriminate; [reflexivity|].
    unfold merge in *. cbn [map combine fst]. f_equal. apply IH. injection K; auto. }
  pose proof (horizontal_length cs a v) as K. clear -E K. revert E K. generalize (horizontal_arrange cs a v).
  induction cs as [|c cs IH]; intros [|p ps] E K; try discriminate; constructor.
  - cbn in E. injection E as E _. exact E.
  - apply IH; [cbn in E; injection E; auto|injection K; auto].
Qed.

(** *** Scrollable containers *)
Definition small_margins (c : child) : Prop := m_top c <= 65535 /\ m_bottom c <= 65535 /\ ml c <= 65535 /\ mr c <= 65535.
Lemma cells_small : forall q, (0 <= q)%Q -> Qfloor q <= 65535 -> cells_u16 q = Qfloor q.
Proof. intros. rewrite cells_sat by auto. apply sat_small; auto. Qed.
Lemma scroll_hidden : forall k s c, count_scroll k s (false, c) = s. Proof. reflexivity. Qed.

Lemma add16_some : forall a b n, add16 a b = Some n -> exists x y, a = Some x /\ b = Some y /\ n = x + y /\ n <= 65535.
Proof.
  intros [x|] [y|] n H; try discriminate. unfold add16 in H. destruct (x + y <=? u16_max) eqn:E; [|discriminate].
  injection H as <-. apply Z.leb_le in E. exists x, y. unfold u16_max in E. auto.
Qed.

(** A sum that is right unless it overflowed. *)
Definition agrees (o : option Z) (n : Z) : Prop := o = None \/ o = Some n.
Lemma agrees_some : forall n, agrees (Some n) n. Proof. right; reflexivity. Qed.
Lemma agrees_eq : forall m n, agrees (Some m) n -> m = n. Proof. intros m n [H|H]; [discriminate|injection H; auto]. Qed.
Lemma agrees_add : forall a b x y, agrees a x -> agrees b y -> agrees (add16 a b) (x + y).
Proof. intros a b x y [-> | ->] [-> | ->]; unfold add16; try (left; reflexivity). destruct (_ <=? _); [right|left]; reflexivity. Qed.
Lemma agrees_max : forall a b x y, agrees a x -> agrees b y -> agrees (max16 a b) (Z.max x y).
Proof. intros a b x y [-> | ->] [-> | ->]; try (left; reflexivity). right; reflexivity. Qed.
Lemma agrees_ok : forall (a b : option Z) o x, agrees o x -> agrees (match a, b with Some _, Some _ => o | _, _ => None end) x.
Proof. intros [a|] [b|] o x H; auto; left; reflexivity. Qed.
Lemma agrees_to : forall o m n, agrees o m -> m = n -> agrees o n. Proof. intros o m n H <-. exact H. Qed.

Definition ssize_h (c : child) : Z := capped_scroll (ch_dh c).
Definition ssize_w (c : child) : Z := capped_scroll (ch_dw c).

Lemma scroll_column_rest : forall l s t prev w, Forall nonneg_margins (shown l) -> Forall small_margins (shown l) ->
  sm_first s = false -> agrees (sm_total_h s) t -> sm_prev_bottom s = prev -> sm_last_bottom s = prev -> agrees (sm_max_w s) w -> 0 <= w ->
  let s' := fold_left (count_scroll LVertical) l s in
  let r := run m_top m_bottom ssize_h t prev (shown l) in
  sm_first_top s' = sm_first_top s /\ agrees (sm_total_h s') (fst r) /\ sm_last_bottom s' = snd r /\
  agrees (sm_max_w s') (Z.max w (largest (fun c => ml c + ssize_w c + mr c) (shown l))).
Proof.
  induction l as [|[b c] l IH]; intros s t prev w N M F T P L W W0.
  - cbn. repeat split; auto. apply (agrees_to _ _ _ W). lia.
  - rewrite shown_cons in *. cbn [fold_left] in *. destruct b; [|rewrite scroll_hidden in *; apply IH; auto].
    assert (Nc := Forall_inv N). assert (Mc := Forall_inv M). assert (N' := Forall_inv_tail N). assert (M' := Forall_inv_tail M).
    destruct Nc as (B1 & B2 & B3 & B4 & B5 & B6). destruct Mc as (S1 & S2 & S3 & S4).
    cbn [run].
    assert (W' : agrees (sm_max_w (count_scroll LVertical s (true, c))) (Z.max w (ml c + ssize_w c + mr c))).
    { cbn [count_scroll fst snd negb sm_max_w]. rewrite !cells_small by auto. apply agrees_ok. apply agrees_max; auto.
      apply (agrees_to _ (ssize_w c + ml c + mr c)); [|lia]. repeat apply agrees_add; apply agrees_some. }
    destruct (IH (count_scroll LVertical s (true, c)) (t + Z.max (m_top c) prev + ssize_h c) (m_bottom c) (Z.max w (ml c + ssize_w c + mr c))) as (E1 & E2 & E3 & E4); auto; try lia.
    + cbn [count_scroll fst snd negb sm_total_h]. rewrite !cells_small by auto. apply agrees_ok.
      apply (agrees_to _ (t + (ssize_h c + Z.max (sm_prev_bottom s) (m_top c)))); [|rewrite P; lia].
      repeat apply agrees_add; auto; apply agrees_some.
    + cbn [count_scroll fst snd negb sm_prev_bottom]. apply cells_small; auto.
    + cbn [count_scroll fst snd negb sm_last_bottom]. apply cells_small; auto.
    + cbv zeta. rewrite E1, E3. repeat split; auto.
      * cbn [count_scroll fst snd negb sm_first_top]. rewrite F. reflexivity.
      * apply (agrees_to _ _ _ E4). unfold largest. cbn [map fold_right]. lia.
Qed.
Lemma scroll_column_all : forall l, Forall nonneg_margins (shown l) -> Forall small_margins (shown l) ->
  let s := fold_left (count_scroll LVertical) l no_ssums in
  sm_first_top s = first_top (shown l) /\
  agrees (add16 (sm_total_h s) (Some (sm_last_bottom s))) (stack m_top m_bottom ssize_h (shown l)) /\
  agrees (sm_max_w s) (largest (fun c => ml c + ssize_w c + mr c) (shown l)).
Proof.
  induction l as [|[b c] l IH]; intros N M.
  - cbn. repeat split; apply agrees_some.
  - rewrite shown_cons in *. cbn [fold_left]. destruct b; [clear IH|rewrite scroll_hidden; apply IH; auto].
    assert (Nc := Forall_inv N). assert (Mc := Forall_inv M). assert (N' := Forall_inv_tail N). assert (M' := Forall_inv_tail M).
    destruct (margins_floor c Nc) as (A1 & A2 & A3 & A4).
    destruct Nc as (B1 & B2 & B3 & B4 & B5 & B6). destruct Mc as (S1 & S2 & S3 & S4).
    destruct (scroll_column_rest l (count_scroll LVertical no_ssums (true, c)) (ssize_h c + m_top c) (m_bottom c) (ml c + ssize_w c + mr c)) as (E1 & E2 & E3 & E4); auto.
    + cbn [count_scroll fst snd negb sm_total_h no_ssums sm_prev_bottom]. rewrite !cells_small by auto. apply agrees_ok.
      apply (agrees_to _ (0 + (ssize_h c + Z.max 0 (m_top c)))); [|lia]. repeat apply agrees_add; auto; apply agrees_some.
    + cbn [count_scroll fst snd negb sm_prev_bottom]. apply cells_small; auto.
    + cbn [count_scroll fst snd negb sm_last_bottom]. apply cells_small; auto.
    + cbn [count_scroll fst snd negb sm_max_w no_ssums]. rewrite !cells_small by auto. apply agrees_ok.
      apply (agrees_to _ (Z.max 0 (ssize_w c + ml c + mr c))); [|unfold ssize_w, capped_scroll; destruct (_ =? _); lia]. apply agrees_max; [apply agrees_some|].
      repeat apply agrees_add; apply agrees_some.
    + unfold ssize_w, capped_scroll. destruct (_ =? _); lia.
    + cbv zeta. rewrite E1. split; [|split].
      * cbn [count_scroll fst snd negb sm_first_top first_top]. apply cells_small; auto.
      * cbn [stack]. rewrite run_shift in E2, E3. cbn [fst snd] in E2, E3. rewrite E3.
        apply (agrees_to _ (fst (run m_top m_bottom ssize_h (ssize_h c) (m_bottom c) (shown l)) + m_top c + snd (run m_top m_bottom ssize_h (ssize_h c) (m_bottom c) (shown l)))); [|lia].
        apply agrees_add; auto. apply agrees_some.
      * apply (agrees_to _ _ _ E4). unfold largest. cbn [map fold_right]. lia.
Qed.

Lemma scroll_row_rest : forall l s t prev w, Forall nonneg_margins (shown l) -> Forall small_margins (shown l) ->
  sm_first_h s = false -> agrees (sm_total_w s) t -> sm_prev_right s = prev -> sm_last_right s = prev -> agrees (sm_max_h s) w -> 0 <= w ->
  let s' := fold_left (count_scroll LHorizontal) l s in
  let r := run ml mr ssize_w t prev (shown l) in
  sm_first_left s' = sm_first_left s /\ agrees (sm_total_w s') (fst r) /\ sm_last_right s' = snd r /\
  agrees (sm_max_h s') (Z.max w (largest (fun c => m_top c + ssize_h c + m_bottom c) (shown l))).
Proof.
  induction l as [|[b c] l IH]; intros s t prev w N M F T P L W W0.
  - cbn. repeat split; auto. apply (agrees_to _ _ _ W). lia.
  - rewrite shown_cons in *. cbn [fold_left] in *. destruct b; [|rewrite scroll_hidden in *; apply IH; auto].
    assert (Nc := Forall_inv N). assert (Mc := Forall_inv M). assert (N' := Forall_inv_tail N). assert (M' := Forall_inv_tail M).
    destruct Nc as (B1 & B2 & B3 & B4 & B5 & B6). destruct Mc as (S1 & S2 & S3 & S4).
    cbn [run].
    assert (W' : agrees (sm_max_h (count_scroll LHorizontal s (true, c))) (Z.max w (m_top c + ssize_h c + m_bottom c))).
    { cbn [count_scroll fst snd negb sm_max_h]. rewrite !cells_small by auto. apply agrees_ok. apply agrees_max; auto.
      apply (agrees_to _ (ssize_h c + m_top c + m_bottom c)); [|lia]. repeat apply agrees_add; apply agrees_some. }
    destruct (IH (count_scroll LHorizontal s (true, c)) (t + Z.max (ml c) prev + ssize_w c) (mr c) (Z.max w (m_top c + ssize_h c + m_bottom c))) as (E1 & E2 & E3 & E4); auto; try lia.
    + cbn [count_scroll fst snd negb sm_total_w]. rewrite !cells_small by auto. apply agrees_ok.
      apply (agrees_to _ (t + (ssize_w c + Z.max (sm_prev_right s) (ml c)))); [|rewrite P; lia].
      repeat apply agrees_add; auto; apply agrees_some.
    + cbn [count_scroll fst snd negb sm_prev_right]. apply cells_small; auto.
    + cbn [count_scroll fst snd negb sm_last_right]. apply cells_small; auto.
    + cbv zeta. rewrite E1, E3. repeat split; auto.
      * cbn [count_scroll fst snd negb sm_first_left]. rewrite F. reflexivity.
      * apply (agrees_to _ _ _ E4). unfold largest. cbn [map fold_right]. lia.
Qed.
Lemma scroll_row_all : forall l, Forall nonneg_margins (shown l) -> Forall small_margins (shown l) ->
  let s := fold_left (count_scroll LHorizontal) l no_ssums in
  sm_first_left s = first_left (shown l) /\
  agrees (add16 (sm_total_w s) (Some (sm_last_right s))) (stack ml mr ssize_w (shown l)) /\
  agrees (sm_max_h s) (largest (fun c => m_top c + ssize_h c + m_bottom c) (shown l)).
Proof.
  induction l as [|[b c] l IH]; intros N M.
  - cbn. repeat split; apply agrees_some.
  - rewrite shown_cons in *. cbn [fold_left]. destruct b; [clear IH|rewrite scroll_hidden; apply IH; auto].
    assert (Nc := Forall_inv N). assert (Mc := Forall_inv M). assert (N' := Forall_inv_tail N). assert (M' := Forall_inv_tail M).
    destruct (margins_floor c Nc) as (A1 & A2 & A3 & A4).
    destruct Nc as (B1 & B2 & B3 & B4 & B5 & B6). destruct Mc as (S1 & S2 & S3 & S4).
    destruct (scroll_row_rest l (count_scroll LHorizontal no_ssums (true, c)) (ssize_w c + ml c) (mr c) (m_top c + ssize_h c + m_bottom c)) as (E1 & E2 & E3 & E4); auto.
    + cbn [count_scroll fst snd negb sm_total_w no_ssums sm_prev_right]. rewrite !cells_small by auto. apply agrees_ok.
      apply (agrees_to _ (0 + (ssize_w c + Z.max 0 (ml c)))); [|lia]. repeat apply agrees_add; auto; apply agrees_some.
    + cbn [count_scroll fst snd negb sm_prev_right]. apply cells_small; auto.
    + cbn [count_scroll fst snd negb sm_last_right]. apply cells_small; auto.
    + cbn [count_scroll fst snd negb sm_max_h no_ssums]. rewrite !cells_small by auto. apply agrees_ok.
      apply (agrees_to _ (Z.max 0 (ssize_h c + m_top c + m_bottom c))); [|unfold ssize_h, capped_scroll; destruct (_ =? _); lia]. apply agrees_max; [apply agrees_some|].
      repeat apply agrees_add; apply agrees_some.
    + unfold ssize_h, capped_scroll. destruct (_ =? _); lia.
    + cbv zeta. rewrite E1. split; [|split].
      * cbn [count_scroll fst snd negb sm_first_left first_left]. apply cells_small; auto.
      * cbn [stack]. rewrite run_shift in E2, E3. cbn [fst snd] in E2, E3. rewrite E3.
        apply (agrees_to _ (fst (run ml mr ssize_w (ssize_w c) (mr c) (shown l)) + ml c + snd (run ml mr ssize_w (ssize_w c) (mr c) (shown l)))); [|lia].
        apply agrees_add; auto. apply agrees_some.
      * apply (agrees_to _ _ _ E4). unfold largest. cbn [map fold_right]. lia.
Qed.
Lemma scroll_fill : forall k l s,
  sm_fill_w (fold_left (count_scroll k) l s) = sm_fill_w s || existsb (fun c => ch_dw c =? 65535) (shown l) /\
  sm_fill_h (fold_left (count_scroll k) l s) = sm_fill_h s || existsb (fun c => ch_dh c =? 65535) (shown l).
Proof.
  intros k. induction l as [|[b c] l IH]; intros s.
  - cbn. rewrite !orb_false_r. auto.
  - rewrite shown_cons. cbn [fold_left]. destruct b; [|rewrite scroll_hidden; apply IH].
    destruct (IH (count_scroll k s (true, c))) as (-> & ->).
    destruct k; cbn [count_scroll fst snd negb sm_fill_w sm_fill_h existsb]; unfold u16_max; rewrite <- !orb_assoc; auto.
Qed.

(** When nothing overflows. *)
Definition asked_h (c : child) : Z := m_top c + ssize_h c + m_bottom c.
Definition asked_w (c : child) : Z := ml c + ssize_w c + mr c.
Lemma add16_fits : forall x y, x + y <= 65535 -> add16 (Some x) (Some y) = Some (x + y).
Proof. intros. unfold add16, u16_max. rewrite (proj2 (Z.leb_le _ _)); auto. Qed.
Lemma ssize_nonneg : forall c, nonneg_margins c -> 0 <= ssize_h c /\ 0 <= ssize_w c.
Proof. intros c (_ & _ & _ & _ & A & B). unfold ssize_h, ssize_w, capped_scroll. destruct (ch_dh c =? _), (ch_dw c =? _); lia. Qed.
Lemma child_fits : forall c, nonneg_margins c -> small_margins c -> asked_h c <= 65535 -> asked_w c <= 65535 ->
  add16 (add16 (Some (capped_scroll (ch_dw c))) (Some (cells_u16 (l_ml (ch_style c))))) (Some (cells_u16 (l_mr (ch_style c)))) = Some (ssize_w c + ml c + mr c) /\
  add16 (add16 (Some (capped_scroll (ch_dh c))) (Some (cells_u16 (l_mt (ch_style c))))) (Some (cells_u16 (l_mb (ch_style c)))) = Some (ssize_h c + m_top c + m_bottom c).
Proof.
  intros c N M H W. destruct (margins_floor c N) as (A1 & A2 & A3 & A4). destruct (ssize_nonneg c N).
  destruct N as (B1 & B2 & B3 & B4 & B5 & B6). destruct M as (S1 & S2 & S3 & S4). rewrite !cells_small by auto.
  fold (ssize_w c) (ssize_h c) (ml c) (mr c) (m_top c) (m_bottom c). unfold asked_h, asked_w in *.
  split; rewrite !add16_fits; auto; lia.
Qed.
Lemma zsum_cons : forall x l, zsum (x :: l) = x + zsum l. Proof. reflexivity. Qed.
Lemma asked_sum_nonneg : forall f cs, Forall (fun c : child => 0 <= f c) cs -> 0 <= zsum (map f cs).
Proof. intros f cs H. induction H; cbn [map]; [cbn; lia|rewrite zsum_cons; lia]. Qed.
Lemma asked_nonneg : forall cs, Forall nonneg_margins cs -> Forall (fun c => 0 <= asked_h c) cs /\ Forall (fun c => 0 <= asked_w c) cs.
Proof.
  intros cs N. split; eapply Forall_impl; try exact N; intros c H; destruct (margins_floor c H) as (?&?&?&?); destruct (ssize_nonneg c H); unfold asked_h, asked_w; lia.
Qed.
Lemma scroll_column_fits : forall l s t w, Forall nonneg_margins (shown l) -> Forall small_margins (shown l) ->
  Forall (fun c => asked_w c <= 65535) (shown l) -> sm_prev_bottom s = sm_last_bottom s -> 0 <= sm_prev_bottom s -> 0 <= t ->
  sm_total_h s = Some t -> sm_max_w s = Some w -> t + sm_prev_bottom s + zsum (map asked_h (shown l)) <= 65535 ->
  let s' := fold_left (count_scroll LVertical) l s in
  exists t' w', add16 (sm_total_h s') (Some (sm_last_bottom s')) = Some t' /\ sm_max_w s' = Some w'.
Proof.
  induction l as [|[b c] l IH]; intros s t w N M W E P T Et Ew B.
  - cbn [shown map filter zsum fold_left] in *. rewrite Et, <- E. rewrite add16_fits by (cbn in B; lia). eauto.
  - rewrite shown_cons in *. cbn [fold_left] in *. destruct b; [|rewrite scroll_hidden in *; eapply IH; eauto].
    cbn [map] in B. rewrite zsum_cons in B.
    assert (Nc := Forall_inv N). assert (Mc := Forall_inv M). assert (Wc := Forall_inv W). cbv beta in Wc. assert (N' := Forall_inv_tail N). assert (M' := Forall_inv_tail M).
    assert (W' := Forall_inv_tail W).
    pose proof (asked_sum_nonneg _ _ (proj1 (asked_nonneg _ N'))) as S0.
    destruct (margins_floor c Nc) as (A1 & A2 & A3 & A4). destruct (ssize_nonneg c Nc) as (Z1 & Z2). 
    destruct (child_fits c Nc Mc) as (F1 & F2); [unfold asked_h in *; lia|auto|].
    destruct Nc as (B1 & B2 & B3 & B4 & B5 & B6). destruct Mc as (S1 & S2 & S3 & S4).
    assert (P1 : sm_prev_bottom (count_scroll LVertical s (true, c)) = m_bottom c) by (cbn [count_scroll fst snd negb sm_prev_bottom]; apply cells_small; auto).
    assert (P2 : sm_last_bottom (count_scroll LVertical s (true, c)) = m_bottom c) by (cbn [count_scroll fst snd negb sm_last_bottom]; apply cells_small; auto).
    unfold asked_h in B at 1.
    eapply (IH (count_scroll LVertical s (true, c)) (t + (ssize_h c + Z.max (sm_prev_bottom s) (m_top c)))); auto; try lia.
    + cbn [count_scroll fst snd negb sm_total_h]. rewrite F1, F2, Et, cells_small by auto. fold (m_top c) (ssize_h c). rewrite !add16_fits by lia. reflexivity.
    + cbn [count_scroll fst snd negb sm_max_w]. rewrite F1, F2, Ew. reflexivity.
Qed.
Lemma scroll_row_fits : forall l s t w, Forall nonneg_margins (shown l) -> Forall small_margins (shown l) ->
  Forall (fun c => asked_h c <= 65535) (shown l) -> sm_prev_right s = sm_last_right s -> 0 <= sm_prev_right s -> 0 <= t ->
  sm_total_w s = Some t -> sm_max_h s = Some w -> t + sm_prev_right s + zsum (map asked_w (shown l)) <= 65535 ->
  let s' := fold_left (count_scroll LHorizontal) l s in
  exists t' w', add16 (sm_total_w s') (Some (sm_last_right s')) = Some t' /\ sm_max_h s' = Some w'.
Proof.
  induction l as [|[b c] l IH]; intros s t w N M W E P T Et Ew B.
  - cbn [shown map filter zsum fold_left] in *. rewrite Et, <- E. rewrite add16_fits by (cbn in B; lia). eauto.
  - rewrite shown_cons in *. cbn [fold_left] in *. destruct b; [|rewrite scroll_hidden in *; eapply IH; eauto].
    cbn [map] in B. rewrite zsum_cons in B.
    assert (Nc := Forall_inv N). assert (Mc := Forall_inv M). assert (Wc := Forall_inv W). cbv beta in Wc. assert (N' := Forall_inv_tail N). assert (M' := Forall_inv_tail M).
    assert (W' := Forall_inv_tail W).
    pose proof (asked_sum_nonneg _ _ (proj2 (asked_nonneg _ N'))) as S0.
    destruct (margins_floor c Nc) as (A1 & A2 & A3 & A4). destruct (ssize_nonneg c Nc) as (Z1 & Z2). 
    destruct (child_fits c Nc Mc) as (F1 & F2); [auto|unfold asked_w in *; lia|].
    destruct Nc as (B1 & B2 & B3 & B4 & B5 & B6). destruct Mc as (S1 & S2 & S3 & S4).
    assert (P1 : sm_prev_right (count_scroll LHorizontal s (true, c)) = mr c) by (cbn [count_scroll fst snd negb sm_prev_right]; apply cells_small; auto).
    assert (P2 : sm_last_right (count_scroll LHorizontal s (true, c)) = mr c) by (cbn [count_scroll fst snd negb sm_last_right]; apply cells_small; auto).
    unfold asked_w in B at 1.
    eapply (IH (count_scroll LHorizontal s (true, c)) (t + (ssize_w c + Z.max (sm_prev_right s) (ml c)))); auto; try lia.
    + cbn [count_scroll fst snd negb sm_total_w]. rewrite F1, F2, Et, cells_small by auto. fold (ml c) (ssize_w c). rewrite !add16_fits by lia. reflexivity.
    + cbn [count_scroll fst snd negb sm_max_h]. rewrite F1, F2, Ew. reflexivity.
Qed.
