(** C103: what the snapshots of a canvas say. *)
From Coq Require Import String ZArith List Bool Arith Lia.
From Verif Require Import Text_Model Keys_Proofs Canvas_Model Canvas_Spec Canvas_Proofs Snapshot_Model Snapshot_Spec Snapshot_Proofs.
Import ListNotations.
Notation length := List.length.
Open Scope Z_scope.
Open Scope list_scope.

(** C103: read by a terminal, the coloured snapshot is the picture on the canvas: row
    by row every symbol, with the colours and attributes of its cell. *)
Theorem C103_ansi : forall (c : canvas) rows, rows_of c rows -> Forall printable (cv_cells c) ->
  shown (to_ansi_snapshot c) = rows_shown rows.
Proof.
  intros c rows R P. unfold to_ansi_snapshot. rewrite <- (map_map (row_cells c) ansi_row), (row_cells_of c rows R).
  apply read_rows. destruct R as (C & _ & _). rewrite C in P. clear C. induction rows as [|r rows IH]; [constructor|].
  cbn [concat] in P. apply Forall_app in P as [P1 P2]. constructor; auto.
Qed.
Print Assumptions C103_ansi.

(** Every canvas has rows, whatever was drawn on it. *)
Theorem C103_rows : forall gw sym_eqb color_eqb reset Bg (translucent : option Bg -> bool) resolve_bg w h (c0 : canvas) ops c,
  canvas_new (str " ") w h = Some c0 -> Forall op_i32 ops ->
  run gw (str " ") sym_eqb color_eqb reset translucent resolve_bg c0 ops = Some c ->
  cv_w c = w /\ cv_h c = h /\ exists rows, rows_of c rows.
Proof.
  intros gw sym_eqb color_eqb reset Bg translucent resolve_bg w h c0 ops c N F R.
  destruct (run_good gw (str " ") sym_eqb color_eqb reset translucent resolve_bg w h ops [] c0 (new_good (str " ") w h c0 N) F) as (c' & E & G).
  assert (c' = c) by congruence. subst c'. destruct G as (W & H & L & _). split; [exact W|]. split; [exact H|].
  unfold rows_of. rewrite W, H. revert L. generalize (cv_cells c) as l. clear. induction h as [|h IH]; intros l L.
  - exists []. rewrite Nat.mul_0_r in L. destruct l; [|discriminate]. repeat split. constructor.
  - destruct (IH (skipn w l)) as (rows & E & H & F); [rewrite skipn_length; nia|].
    exists (firstn w l :: rows). split; [|split].
    + cbn [concat]. rewrite <- E. symmetry. apply firstn_skipn.
    + cbn [length]. congruence.
    + constructor; [rewrite firstn_length; nia|exact F].
Qed.
Print Assumptions C103_rows.

(** C103: the plain snapshot has one line per row: its symbols, up to the blanks at
    its end. *)
Definition row_text (r : list cell) : text := flat_map (fun k => if c_cont k then [32] else c_sym k) r.
Definition without_blanks (t line : text) : Prop :=
  (exists blanks, Forall (fun c => is_ws c = true) blanks /\ t = line ++ blanks) /\
  match rev line with [] => True | c :: _ => is_ws c = false end.
Lemma trim_end_last : forall t, match rev (trim_end t) with [] => True | c :: _ => is_ws c = false end.
Proof.
  intros t. unfold trim_end. rewrite rev_involutive. induction (rev t) as [|c r IH]; [exact I|]. cbn [trim_start].
  destruct (is_ws c) eqn:E; [exact IH|exact E].
Qed.
Theorem C103_plain : forall (c : canvas) rows, rows_of c rows ->
  exists lines, to_snapshot c = join_lines lines /\ Forall2 (fun r l => without_blanks (row_text r) l) rows lines.
Proof.
  intros c rows R. exists (map (fun r => trim_end (row_text r)) rows). split.
  - unfold to_snapshot. f_equal. rewrite <- (row_cells_of c rows R) at 1. rewrite map_map. reflexivity.
  - clear R. induction rows as [|r rows IH]; [constructor|]. constructor; [|exact IH]. split; [|apply trim_end_last].
    destruct (trim_end_split (row_text r)) as (w & B & E). exists w. split; [exact B|exact E].
Qed.
Print Assumptions C103_plain.
(** Lines joined by newlines can be told apart again, as symbols contain none. *)
Theorem C103_lines : forall a b : list text, Forall (fun l => ~ In 10 l) a -> Forall (fun l => ~ In 10 l) b -> length a = length b ->
  join_lines a = join_lines b -> a = b.
Proof.
  induction a as [|x a IH]; intros [|y b] Fa Fb L E; try discriminate; [reflexivity|].
  inversion Fa as [|? ? Nx Fa']; subst. inversion Fb as [|? ? Ny Fb']; subst. injection L as L.
  assert (S : forall (u v p q : text), ~ In 10 u -> ~ In 10 v -> u ++ 10 :: p = v ++ 10 :: q -> u = v /\ p = q).
  { clear. induction u as [|c u IH]; intros [|d v] p q Nu Nv H; cbn [app] in H.
    - injection H as ->. auto.
    - injection H as <- _. destruct Nv. now left.
    - injection H as -> _. destruct Nu. now left.
    - injection H as -> H. destruct (IH v p q) as [-> ->]; [intro; apply Nu; now right|intro; apply Nv; now right|exact H|]. auto. }
  destruct a as [|x' a], b as [|y' b]; try discriminate.
  - cbn in E. congruence.
  - destruct (S x y (join_lines (x' :: a)) (join_lines (y' :: b)) Nx Ny E) as [-> E']. f_equal. apply IH; auto.
Qed.
Print Assumptions C103_lines.

(** C103: asking for one cell gives the first character of its symbol and whether it
    has a background; outside there is nothing. *)
Theorem C103_cell : forall (c : canvas) rows x y, rows_of c rows ->
  (forall r k, 0 <= x -> 0 <= y -> nth_error rows (Z.to_nat y) = Some r -> nth_error r (Z.to_nat x) = Some k ->
     get_char c x y = hd 0 (if c_cont k then [32] else c_sym k) /\ (has_bg_at c x y = true <-> c_bg k <> None)) /\
  (~ on_screen (cv_w c) (cv_h c) x y -> get_char c x y = 0 /\ has_bg_at c x y = false).
Proof.
  intros c rows x y (C & H & W). split.
  - intros r k X Y R K.
    assert (Lx : (Z.to_nat x < cv_w c)%nat). { rewrite Forall_forall in W. rewrite <- (W r) by (eapply nth_error_In; exact R). apply nth_error_Some. congruence. }
    assert (Ly : (Z.to_nat y < cv_h c)%nat) by (rewrite <- H; apply nth_error_Some; congruence).
    assert (E : cell_at c x y = Some k).
    { unfold cell_at. destruct (Z.ltb_spec x 0); [lia|]. destruct (Z.leb_spec (Z.of_nat (cv_w c)) x); [lia|].
      destruct (Z.ltb_spec y 0); [lia|]. destruct (Z.leb_spec (Z.of_nat (cv_h c)) y); [lia|]. cbn [orb]. rewrite C.
      clear - R K W Lx. revert R. generalize (Z.to_nat y) as i. induction W as [|r0 rows L W IH]; intros i R; [destruct i; discriminate|]. destruct i as [|i].
      - injection R as ->. cbn [concat Nat.mul Nat.add]. rewrite nth_error_app1 by lia. exact K.
      - cbn [concat]. rewrite nth_error_app2 by (rewrite L; lia). replace (S i * cv_w c + Z.to_nat x - length r0)%nat with (i * cv_w c + Z.to_nat x)%nat by (rewrite L; lia).
        apply IH, R. }
    unfold get_char, has_bg_at. rewrite E. split; [destruct (c_cont k); [reflexivity|]; destruct (c_sym k); reflexivity|].
    destruct (c_bg k); split; congruence.
  - intros N. assert (E : cell_at c x y = None).
    { unfold cell_at. destruct (Z.ltb_spec x 0); [reflexivity|]. destruct (Z.leb_spec (Z.of_nat (cv_w c)) x); [reflexivity|].
      destruct (Z.ltb_spec y 0); [reflexivity|]. destruct (Z.leb_spec (Z.of_nat (cv_h c)) y); [reflexivity|]. destruct N. unfold on_screen. lia. }
    unfold get_char, has_bg_at. rewrite E. split; reflexivity.
Qed.
Print Assumptions C103_cell.

(** A canvas of two rows with colours and attributes. *)
Definition ex_canvas : canvas :=
  let bold := Attrs true false false false false false in
  let red := Some (Rgb 255 0 7) in
  Canvas 2 2
    [Cell (str "a") 1 false red None attrs_default; Cell (str "b") 1 false red (Some (Rgb 0 40 99)) bold;
     Cell (str "c") 1 false None None attrs_default; Cell (str " ") 1 false None None attrs_default] [] true [].
Example C103_example : Forall printable (cv_cells ex_canvas) /\
  to_ansi_snapshot ex_canvas = esc (str "38;2;255;0;7") ++ str "a" ++ esc (str "0") ++ esc (str "1") ++ esc (str "38;2;255;0;7") ++ esc (str "48;2;0;40;99") ++ str "b" ++ esc (str "0")
    ++ [10] ++ str "c " ++ esc (str "0") /\
  to_snapshot ex_canvas = str "ab" ++ [10] ++ str "c" /\
  rows_of ex_canvas [firstn 2 (cv_cells ex_canvas); skipn 2 (cv_cells ex_canvas)].
Proof.
  split; [|split; [|split]].
  - unfold ex_canvas, printable, byte. cbn [cv_cells].
    repeat (apply Forall_cons; [split; [intros [H|[]]; discriminate H|cbn [c_fg c_bg]; intros c [H|H]; try discriminate H; injection H as <-; cbn; lia]|]). apply Forall_nil.
  - reflexivity.
  - reflexivity.
  - split; [reflexivity|]. split; [reflexivity|]. repeat constructor.
Qed.

(** Not so for columns: a wide symbol is followed by a blank for its second half, so
    on a terminal what comes after it is moved to the right. *)
Definition columns (gw : char -> nat) (t : text) : nat := fold_right (fun c n => (gw c + n)%nat) 0%nat t.
Theorem C103_wide_symbols_refuted : forall gw, gw 19990 = 2%nat -> gw 32 = 1%nat -> gw 97 = 1%nat ->
  let row := [Cell [19990] 2 false None None attrs_default; Cell [] 0 true None None attrs_default; Cell [97] 1 false None None attrs_default] in
  let c := Canvas 3 1 row [] true [] : canvas in
  rows_of c [row] /\ columns gw (map fst (shown (to_ansi_snapshot c))) = 4%nat /\ columns gw (to_snapshot c) = 4%nat.
Proof.
  intros gw A B C row c. split; [|split].
  - split; [reflexivity|]. split; [reflexivity|]. repeat constructor.
  - change (map fst (shown (to_ansi_snapshot c))) with [19990; 32; 97]. cbn [columns fold_right]. lia.
  - change (to_snapshot c) with [19990; 32; 97]. cbn [columns fold_right]. lia.
Qed.
Print Assumptions C103_wide_symbols_refuted.
