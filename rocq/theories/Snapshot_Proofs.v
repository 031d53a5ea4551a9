(** Lemmas on snapshots. *)
From Coq Require Import String ZArith List Bool Arith Lia.
From Verif Require Import Text_Model Canvas_Model Snapshot_Model Snapshot_Spec.
Import ListNotations.
Open Scope Z_scope.
Open Scope list_scope.
Notation length := List.length.

Lemma read_plain : forall t s r, ~ In 27 t -> read Normal s (t ++ r) = map (fun c => (c, s)) t ++ read Normal s r.
Proof.
  induction t as [|c t IH]; intros s r N; [reflexivity|]. cbn [app read map]. destruct (Z.eqb_spec c 27) as [->|_]; [destruct N; now left|].
  rewrite IH; [reflexivity|]. intros I. apply N. now right.
Qed.
Lemma read_digits : forall ds done n s r, Forall (fun c => 48 <= c <= 57) ds ->
  read (Codes done n) s (ds ++ r) = read (Codes done (fold_left (fun n c => n * 10 + (c - 48)) ds n)) s r.
Proof.
  induction ds as [|c ds IH]; intros done n s r F; [reflexivity|]. inversion F as [|? ? H F']; subst. cbn [app read fold_left].
  destruct (Z.leb_spec 48 c); [|lia]. destruct (Z.leb_spec c 57); [|lia]. cbn [andb]. apply IH, F'.
Qed.
Lemma dec_digits : forall n, byte n -> Forall (fun c => 48 <= c <= 57) (dec n) /\ fold_left (fun n c => n * 10 + (c - 48)) (dec n) 0 = n.
Proof.
  intros n [A B]. unfold dec. destruct (Z.ltb_spec n 10); [|destruct (Z.ltb_spec n 100)].
  - split; [repeat (apply Forall_cons; [lia|]); apply Forall_nil|cbn [fold_left]; lia].
  - pose proof (Z.mod_pos_bound n 10). pose proof (Z.div_mod n 10). split; [repeat (apply Forall_cons; [lia|]); apply Forall_nil|cbn [fold_left]; lia].
  - pose proof (Z.mod_pos_bound n 10). pose proof (Z.div_mod n 10). pose proof (Z.mod_pos_bound (n / 10) 10). pose proof (Z.div_mod (n / 10) 10).
    assert (E : n / 100 = n / 10 / 10) by (rewrite Z.div_div by lia; reflexivity). split; [repeat (apply Forall_cons; [lia|]); apply Forall_nil|cbn [fold_left]; lia].
Qed.
Lemma read_dec : forall n done s r, byte n -> read (Codes done 0) s (dec n ++ r) = read (Codes done n) s r.
Proof. intros n done s r B. destruct (dec_digits n B) as [F E]. rewrite read_digits by exact F. rewrite E. reflexivity. Qed.
Lemma read_semi : forall done n s r, read (Codes done n) s (59 :: r) = read (Codes (done ++ [n]) 0) s r.
Proof. reflexivity. Qed.
Lemma read_m : forall done n s r, read (Codes done n) s (109 :: r) = read Normal (select s (done ++ [n])) r.
Proof. reflexivity. Qed.

Lemma read_fg : forall c s r, byte (r_r c) -> byte (r_g c) -> byte (r_b c) ->
  read Normal s (rgb_code "38" c ++ r) = read Normal (Look (k_attrs s) (Some c) (k_bg s)) r.
Proof.
  intros [x y z] s r X Y Z. cbn [r_r r_g r_b] in *.
  assert (E : rgb_code "38" (Rgb x y z) ++ r = 27 :: 91 :: 51 :: 56 :: 59 :: 50 :: 59 :: (dec x ++ 59 :: (dec y ++ 59 :: (dec z ++ 109 :: r)))).
  { unfold rgb_code, esc. cbn [r_r r_g r_b]. change (str "38") with [51; 56]. change (str ";2;") with [59; 50; 59]. change (str ";") with [59].
    cbn [app]. do 7 f_equal. repeat (rewrite <- ?app_assoc; cbn [app]). reflexivity. }
  etransitivity; [apply (f_equal (read Normal s) E)|].
  transitivity (read (Codes [38; 2] 0) s (dec x ++ 59 :: (dec y ++ 59 :: (dec z ++ 109 :: r)))); [reflexivity|].
  do 2 (etransitivity; [apply read_dec; assumption|]; etransitivity; [apply read_semi|]).
  etransitivity; [apply read_dec; assumption|]. etransitivity; [apply read_m|]. reflexivity.
Qed.
Lemma read_bg : forall c s r, byte (r_r c) -> byte (r_g c) -> byte (r_b c) ->
  read Normal s (rgb_code "48" c ++ r) = read Normal (Look (k_attrs s) (k_fg s) (Some c)) r.
Proof.
  intros [x y z] s r X Y Z. cbn [r_r r_g r_b] in *.
  assert (E : rgb_code "48" (Rgb x y z) ++ r = 27 :: 91 :: 52 :: 56 :: 59 :: 50 :: 59 :: (dec x ++ 59 :: (dec y ++ 59 :: (dec z ++ 109 :: r)))).
  { unfold rgb_code, esc. cbn [r_r r_g r_b]. change (str "48") with [52; 56]. change (str ";2;") with [59; 50; 59]. change (str ";") with [59].
    cbn [app]. do 7 f_equal. repeat (rewrite <- ?app_assoc; cbn [app]). reflexivity. }
  etransitivity; [apply (f_equal (read Normal s) E)|].
  transitivity (read (Codes [48; 2] 0) s (dec x ++ 59 :: (dec y ++ 59 :: (dec z ++ 109 :: r)))); [reflexivity|].
  do 2 (etransitivity; [apply read_dec; assumption|]; etransitivity; [apply read_semi|]).
  etransitivity; [apply read_dec; assumption|]. etransitivity; [apply read_m|]. reflexivity.
Qed.
Lemma read_attrs : forall a s r, read Normal s (attr_codes a ++ r) = read Normal (Look a None None) r.
Proof. intros [[] [] [] [] [] []] s r; reflexivity. Qed.
Lemma read_reset : forall s r, read Normal s (esc (str "0") ++ r) = read Normal plain r.
Proof. reflexivity. Qed.
Lemma rgb_eqb_iff : forall a b, rgb_eqb a b = true <-> a = b.
Proof.
  intros [a b c] [x y z]. unfold rgb_eqb. cbn [r_r r_g r_b]. rewrite !andb_true_iff, !Z.eqb_eq. split; [intros [[-> ->] ->]; reflexivity|intros [= -> -> ->]; auto].
Qed.
Lemma same_colour : forall a b, ocolor_eqb rgb_eqb a b = true <-> a = b.
Proof.
  intros [a|] [b|]; cbn; try (split; congruence). rewrite rgb_eqb_iff. split; congruence.
Qed.
Definition fine (o : option rgb) : Prop := forall c, o = Some c -> byte (r_r c) /\ byte (r_g c) /\ byte (r_b c).
Lemma read_colour_fg : forall now s r, fine now -> read Normal s (colour_code "38" "39" now (k_fg s) ++ r) = read Normal (Look (k_attrs s) now (k_bg s)) r.
Proof.
  intros now [a fg bg] r F. cbn [k_attrs k_fg k_bg]. unfold colour_code. destruct (ocolor_eqb rgb_eqb now fg) eqn:E.
  - apply same_colour in E. subst. reflexivity.
  - destruct now as [c|]; [destruct (F c eq_refl) as (X & Y & Z); apply read_fg; assumption|]. destruct fg; [reflexivity|discriminate].
Qed.
Lemma read_colour_bg : forall now s r, fine now -> read Normal s (colour_code "48" "49" now (k_bg s) ++ r) = read Normal (Look (k_attrs s) (k_fg s) now) r.
Proof.
  intros now [a fg bg] r F. cbn [k_attrs k_fg k_bg]. unfold colour_code. destruct (ocolor_eqb rgb_eqb now bg) eqn:E.
  - apply same_colour in E. subst. reflexivity.
  - destruct now as [c|]; [destruct (F c eq_refl) as (X & Y & Z); apply read_bg; assumption|]. destruct bg; [reflexivity|discriminate].
Qed.
Lemma attrs_eqb_iff : forall a b, attrs_eqb a b = true <-> a = b.
Proof.
  intros [a b c d e f] [a' b' c' d' e' f']. unfold attrs_eqb. cbn. rewrite !andb_true_iff, !eqb_true_iff.
  split; [intros [[[[[-> ->] ->] ->] ->] ->]; reflexivity|intros [= -> -> -> -> -> ->]; tauto].
Qed.

Lemma read_cell : forall a fg bg k r, printable k ->
  read Normal (Look a fg bg) (fst (ansi_cell (a, fg, bg) k) ++ r) = cell_shown k ++ read Normal (Look (c_attrs k) (c_fg k) (c_bg k)) r.
Proof.
  intros a fg bg k r [N F]. cbn [ansi_cell fst].
  set (changed := negb (attrs_eqb (c_attrs k) a)). rewrite <- !app_assoc.
  assert (E : forall q, read Normal (Look a fg bg) ((if changed then attr_codes (c_attrs k) else []) ++ q)
    = read Normal (Look (c_attrs k) (if changed then None else fg) (if changed then None else bg)) q).
  { intros q. unfold changed. destruct (attrs_eqb (c_attrs k) a) eqn:A; cbn [negb].
    - apply attrs_eqb_iff in A. rewrite A. reflexivity.
    - apply read_attrs. }
  rewrite E. clear E.
  set (fg' := if changed then None else fg). set (bg' := if changed then None else bg).
  change fg' with (k_fg (Look (c_attrs k) fg' bg')) at 2.
  rewrite read_colour_fg by (intros c H; apply F; auto). cbn [k_attrs k_bg k_fg].
  change bg' with (k_bg (Look (c_attrs k) (c_fg k) bg')) at 2.
  rewrite read_colour_bg by (intros c H; apply F; auto). cbn [k_attrs k_bg k_fg].
  rewrite read_plain; [reflexivity|]. unfold cell_text. destruct (c_cont k); [intros [H|[]]; discriminate|exact N].
Qed.
Lemma read_cells : forall l a fg bg r, Forall printable l ->
  exists s, read Normal (Look a fg bg) (ansi_cells (a, fg, bg) l ++ r) = flat_map cell_shown l ++ read Normal s r.
Proof.
  induction l as [|k l IH]; intros a fg bg r F; [eexists; reflexivity|]. inversion F as [|? ? P F']; subst.
  destruct (IH (c_attrs k) (c_fg k) (c_bg k) r F') as [s E]. exists s. cbn [ansi_cells flat_map].
  pose proof (read_cell a fg bg k (ansi_cells (c_attrs k, c_fg k, c_bg k) l ++ r) P) as C.
  destruct (ansi_cell (a, fg, bg) k) as [t now] eqn:K. assert (now = (c_attrs k, c_fg k, c_bg k)) as -> by (cbn in K; injection K as _ <-; reflexivity).
  cbn [fst] in C. rewrite <- app_assoc, C, E, app_assoc. reflexivity.
Qed.
Lemma read_row : forall l r, Forall printable l -> read Normal plain (ansi_row l ++ r) = flat_map cell_shown l ++ read Normal plain r.
Proof.
  intros l r F. unfold ansi_row. rewrite <- app_assoc.
  destruct (read_cells l attrs_default None None (esc (str "0") ++ r) F) as [s E]. change plain with (Look attrs_default None None) at 1. rewrite E, read_reset. reflexivity.
Qed.
Lemma read_rows : forall rows, Forall (Forall printable) rows -> shown (join_lines (map ansi_row rows)) = rows_shown rows.
Proof.
  unfold shown. induction rows as [|l rows IH]; intros F; [reflexivity|]. inversion F as [|? ? P F']; subst. specialize (IH F').
  destruct rows as [|l' rows].
  - cbn [map join_lines rows_shown]. rewrite <- (app_nil_r (ansi_row l)), read_row by exact P. cbn [read]. apply app_nil_r.
  - change (join_lines (map ansi_row (l :: l' :: rows))) with (ansi_row l ++ 10 :: join_lines (map ansi_row (l' :: rows))).
    change (rows_shown (l :: l' :: rows)) with (flat_map cell_shown l ++ (10, plain) :: rows_shown (l' :: rows)).
    rewrite read_row by exact P. f_equal. rewrite <- IH. reflexivity.
Qed.

Lemma list_ext : forall {A} (a b : list A), (forall i, nth_error a i = nth_error b i) -> a = b.
Proof.
  induction a as [|x a IH]; intros [|y b] H; [reflexivity|specialize (H 0%nat); discriminate|specialize (H 0%nat); discriminate|].
  pose proof (H 0%nat) as E. injection E as ->. f_equal. apply IH. intros i. exact (H (S i)).
Qed.
Lemma row_cells_of : forall (c : canvas) rows, rows_of c rows -> map (row_cells c) (seq 0 (cv_h c)) = rows.
Proof.
  intros c rows (C & H & W). rewrite <- H.
  assert (G : forall i r, nth_error rows i = Some r -> row_cells c i = r).
  { intros i r N. unfold row_cells. rewrite C. clear C H. revert i N. induction W as [|x rows Lx W IH]; intros i N; [destruct i; discriminate|].
    destruct i as [|i]; cbn [nth_error] in N.
    - injection N as ->. cbn [Nat.mul skipn concat]. rewrite <- Lx, firstn_app, firstn_all, Nat.sub_diag. cbn. apply app_nil_r.
    - cbn [concat]. replace (S i * cv_w c)%nat with (length x + i * cv_w c)%nat by (rewrite Lx; lia). rewrite skipn_app.
      replace (length x + i * cv_w c - length x)%nat with (i * cv_w c)%nat by lia. rewrite skipn_all2 by lia. cbn [app]. apply IH, N. }
  apply list_ext. intros i. rewrite nth_error_map. destruct (nth_error rows i) as [r|] eqn:N.
  - assert (L : (i < length rows)%nat) by (apply nth_error_Some; congruence).
    assert (S : nth_error (seq 0 (length rows)) i = Some i) by (rewrite nth_error_nth' with (d := 0%nat) by (rewrite seq_length; exact L); rewrite seq_nth by exact L; reflexivity).
    rewrite S. cbn [option_map]. f_equal. apply G, N.
  - assert (L : (length rows <= i)%nat) by (apply nth_error_None; exact N).
    assert (S : nth_error (seq 0 (length rows)) i = None) by (apply nth_error_None; rewrite seq_length; exact L). rewrite S. reflexivity.
Qed.
