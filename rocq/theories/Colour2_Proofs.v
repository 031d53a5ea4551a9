(** Proofs about hsl() and about parsing colours. *)
From Coq Require Import ZArith QArith Qround Qabs String List Bool Lia Lqa.
From Verif Require Import Text_Model Float32_Model Float32_Proofs Bars_Proofs Css_Proofs Fuzzy_Proofs Colour_Model Colour_Spec Colour_Proofs.
Import ListNotations.
Notation length := List.length.
Open Scope list_scope.
Local Open Scope Q_scope.

(** *** hsl() *)
(** The shape of one channel over one turn, from [t] = hue / 360 + 1/3 etc. *)
Definition turn (p q t : Q) : Q :=
  if negb (Qle_bool (1 / 6) t) then p + (q - p) * 6 * t
  else if negb (Qle_bool (1 # 2) t) then q
  else if negb (Qle_bool (2 / 3) t) then p + (q - p) * (2 / 3 - t) * 6
  else p.
Lemma hue_turn : forall p q t, hue_to_rgb exactly p q t = turn p q (let t := if Qle_bool 0 t then t else t + 1 in if Qle_bool t 1 then t else t - 1).
Proof. reflexivity. Qed.
Ltac qc :=
  match goal with
  | |- context [Qle_bool ?a ?b] => lazymatch a with context [Qle_bool _ _] => fail | _ => lazymatch b with context [Qle_bool _ _] => fail | _ =>
      let E := fresh "E" in destruct (Qle_bool a b) eqn:E; [apply Qle_bool_iff in E|apply Qle_bool_false in E]; cbn [negb] end end
  end.
Lemma sixth : 1 / 6 == 1 # 6. Proof. reflexivity. Qed.
Lemma third2 : 2 / 3 == 2 # 3. Proof. reflexivity. Qed.
(** One turn in CSS form. *)
Lemma turn_css : forall l a k, 0 <= k -> k < 12 -> forall t, t == (k + 4) / 12 \/ t == (k + 4) / 12 - 1 -> 0 <= t -> t <= 1 ->
  turn (l - a) (l + a) t == l - a * qmax2 (- (1)) (qmin2 (k - 3) (qmin2 (9 - k) 1)).
Proof.
  intros l a k K0 K1 t T T0 T1. unfold turn, qmax2, qmin2. unfold Qdiv in *. change (1 * / 6) with (1 # 6). change (2 * / 3) with (2 # 3). change (/ 12) with (1 # 12) in T.
  assert (T' : k == 12 * t - 4 \/ k == 12 * t + 8) by (destruct T; [left|right]; lra).
  repeat qc; try (exfalso; destruct T'; lra); destruct T' as [T'|T']; try (exfalso; lra); try rewrite T'; try ring;
  try (assert (X : t == 1 # 6) by lra; rewrite X; ring); try (assert (X : t == 1 # 2) by lra; rewrite X; ring); try (assert (X : t == 2 # 3) by lra; rewrite X; ring); try (assert (X : t == 1) by lra; rewrite X; ring); try (assert (X : t == 0) by lra; rewrite X; ring).
Qed.
Lemma turn_ext : forall p q t p' q', p == p' -> q == q' -> turn p q t == turn p' q' t.
Proof. intros p q t p' q' P Q. unfold turn. repeat (match goal with |- context [negb ?b] => destruct b; cbn [negb] end); rewrite ?P, ?Q; reflexivity. Qed.
Definition off (ch : channel) (h : Q) : Q := match ch with Red => h / 360 + 1 / 3 | Green => h / 360 | Blue => h / 360 - 1 / 3 end.
Lemma wrap_turn : forall ch h p q l a, -(240) <= h -> h <= 600 -> p == l - a -> q == l + a ->
  let x := (match ch with Red => 0 | Green => 8 | Blue => 4 end) + h / 30 in
  let k := x - 12 * inject_Z (Qfloor (x / 12)) in
  hue_to_rgb exactly p q (off ch h) == l - a * qmax2 (- (1)) (qmin2 (k - 3) (qmin2 (9 - k) 1)).
Proof.
  intros ch h p q l a H0 H1 P Q x k. rewrite hue_turn. cbv zeta. rewrite (turn_ext _ _ _ _ _ P Q).
  assert (K0 : 0 <= k /\ k < 12). { unfold k. pose proof (Qfloor_le (x / 12)) as A. pose proof (Qlt_floor (x / 12)) as B. rewrite inject_Z_plus in B. change (inject_Z 1) with 1 in B. unfold Qdiv in *. change (/ 12) with (1 # 12) in *. lra. }
  destruct K0 as [K0 K1]. set (f := Qfloor (x / 12)) in *.
  assert (O : off ch h == (k + 4) / 12 + inject_Z f - (match ch with Red => 0 | Green | Blue => 1 end)).
  { unfold k, x, off, Qdiv. change (/ 12) with (1 # 12). change (/ 360) with (1 # 360). change (/ 30) with (1 # 30). change (1 * / 3) with (1 # 3). destruct ch; lra. }
  assert (B : -(1) <= off ch h /\ off ch h <= 2). { unfold off, Qdiv. change (/ 360) with (1 # 360). change (1 * / 3) with (1 # 3). destruct ch; lra. }
  destruct B as [B0 B1]. clearbody k f. clear x P Q p q. set (o := off ch h) in *. clearbody o.
  assert (J : exists j, (match ch with Red => 0 | Green | Blue => 1 end) - inject_Z f == inject_Z j).
  { destruct ch; [exists (- f)%Z; rewrite inject_Z_opp; ring| |]; (exists (1 - f)%Z; unfold Z.sub; rewrite inject_Z_plus, inject_Z_opp; reflexivity). }
  destruct J as (j & J). unfold Qdiv in *. change (/ 12) with (1 # 12) in *.
  assert (E : forall i t, t == o + inject_Z i -> 0 <= t -> t <= 1 -> turn (l - a) (l + a) t == l - a * qmax2 (- (1)) (qmin2 (k - 3) (qmin2 (9 - k) 1))).
  { intros i t T T0 T1. assert (D : t == (k + 4) * (1 # 12) + inject_Z (i - j)) by (unfold Z.sub; rewrite inject_Z_plus, inject_Z_opp; lra).
    assert (N1 : inject_Z (i - j) < inject_Z 1) by (change (inject_Z 1) with 1; lra). assert (N2 : inject_Z (-2) < inject_Z (i - j)) by (change (inject_Z (-2)) with (-(2)); lra). rewrite <- Zlt_Qlt in N1, N2.
    apply turn_css; auto. unfold Qdiv. change (/ 12) with (1 # 12). assert (i - j = 0 \/ i - j = -1)%Z as [X|X] by lia; rewrite X in D; [left|right]; [change (inject_Z 0) with 0 in D|change (inject_Z (-1)) with (-(1)) in D]; lra. }
  repeat qc; first [solve [apply (E 0%Z); change (inject_Z 0) with 0; lra] | solve [apply (E (-1)%Z); change (inject_Z (-1)) with (-(1)); lra] | solve [apply (E 1%Z); change (inject_Z 1) with 1; lra]].
Qed.
Lemma hsl_css : forall h s l, -(240) <= h -> h <= 600 ->
  match hsl_channels exactly h s l with (r, g, b) => r == css_hsl Red h s l /\ g == css_hsl Green h s l /\ b == css_hsl Blue h s l end.
Proof.
  intros h s l H0 H1. unfold hsl_channels. destruct (Qeq_bool s 0) eqn:S.
  { apply Qeq_bool_iff in S. unfold css_hsl. rewrite S. repeat split; ring. }
  assert (Q : (if negb (Qle_bool (1 # 2) l) then l * (1 + s) else l + s - l * s) == l + s * qmin2 l (1 - l)).
  { unfold qmin2. repeat qc; try lra; try ring. assert (l == 1 # 2) as X by lra. rewrite X. ring. }
  set (q := if negb (Qle_bool (1 # 2) l) then l * (1 + s) else l + s - l * s) in *. assert (P : 2 * l - q == l - s * qmin2 l (1 - l)) by lra.
  cbv zeta. split; [|split].
  - exact (wrap_turn Red h _ _ l (s * qmin2 l (1 - l)) H0 H1 P Q).
  - exact (wrap_turn Green h _ _ l (s * qmin2 l (1 - l)) H0 H1 P Q).
  - exact (wrap_turn Blue h _ _ l (s * qmin2 l (1 - l)) H0 H1 P Q).
Qed.
Lemma css_range : forall ch h s l, 0 <= s -> s <= 1 -> 0 <= l -> l <= 1 -> 0 <= css_hsl ch h s l /\ css_hsl ch h s l <= 1.
Proof.
  intros ch h s l S0 S1 L0 L1. unfold css_hsl. cbv zeta. match goal with |- context [qmax2 _ ?m] => set (mm := m) end.
  assert (M : -(1) <= qmax2 (-(1)) mm /\ qmax2 (-(1)) mm <= 1).
  { assert (mm <= 1). { unfold mm, qmin2. repeat qc; lra. } unfold qmax2. qc; lra. }
  set (m := qmax2 (-(1)) mm) in *. clearbody m. destruct M as [M0 M1].
  assert (W : 0 <= qmin2 l (1 - l) /\ qmin2 l (1 - l) <= l /\ qmin2 l (1 - l) <= 1 - l) by (unfold qmin2; qc; lra). set (w := qmin2 l (1 - l)) in *. clearbody w. destruct W as (W0 & W1 & W2).
  assert (A0 : 0 <= s * w) by (apply Qmult_le_0_compat; auto). assert (A1 : s * w <= w) by (setoid_replace w with (1 * w) at 2 by ring; apply Qmult_le_compat_r; auto).
  set (a := s * w) in *. clearbody a. assert (B : - a <= a * m /\ a * m <= a) by (split; nra). lra.
Qed.
