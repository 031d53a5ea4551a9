(** Proofs about parsing colours. *)
From Coq Require Import ZArith QArith Qround Qabs String List Bool Lia.
From Verif Require Import Text_Model Float32_Model Css_Proofs Fuzzy_Proofs Colour_Model Colour_Spec.
Import ListNotations.
Notation length := List.length.
Open Scope Z_scope.
Open Scope list_scope.

(** *** Trimming *)
Definition firstok (t : text) : Prop := match t with c :: _ => is_ws c = false | [] => False end.
Lemma trim_start_blank : forall w t, blank w -> trim_start (w ++ t) = trim_start t.
Proof. induction w as [|c w IH]; intros t H; auto. inversion H as [|x l [A _] B]; subst. cbn. rewrite A. auto. Qed.
Lemma trim_start_ok : forall t, firstok t -> trim_start t = t.
Proof. intros [|c t] H; [destruct H|]. cbn in *. rewrite H. reflexivity. Qed.
Lemma blank_rev : forall w, blank w -> blank (rev w).
Proof. intros w H. apply Forall_rev. auto. Qed.
Lemma firstok_app : forall a b, firstok a -> firstok (a ++ b).
Proof. intros [|c a] b H; [destruct H|exact H]. Qed.
Lemma trim_pad : forall w1 t w2, blank w1 -> blank w2 -> firstok t -> firstok (rev t) -> trim (w1 ++ t ++ w2) = t.
Proof.
  intros w1 t w2 A B F L. unfold trim, trim_end. rewrite trim_start_blank by auto. rewrite (trim_start_ok (t ++ w2)) by (apply firstok_app; auto). rewrite rev_app_distr, trim_start_blank by (apply blank_rev; auto). rewrite trim_start_ok by auto. apply rev_involutive.
Qed.
Lemma solid_ends : forall t, t <> [] -> Forall (fun c => is_ws c = false) t -> firstok t /\ firstok (rev t).
Proof.
  intros t N H. split. { destruct t; [congruence|]. inversion H; auto. }
  assert (H' : Forall (fun c => is_ws c = false) (rev t)) by (apply Forall_rev; auto). destruct (rev t) as [|c r] eqn:E.
  - apply (f_equal (@rev _)) in E. rewrite rev_involutive in E. cbn in E; exact (N E).
  - inversion H'; auto.
Qed.

(** *** Splitting *)
Lemma split_at_first : forall c a b, ~ In c a -> split_at_char c (a ++ c :: b) = Some (a, b).
Proof. intros c. induction a as [|x a IH]; intros b N; cbn. { rewrite Z.eqb_refl. reflexivity. } destruct (Z.eqb_spec x c) as [->|]. { destruct N. left. auto. } rewrite IH by (intros X; apply N; right; auto). reflexivity. Qed.
Lemma split_at_some : forall c t a b, split_at_char c t = Some (a, b) -> t = a ++ c :: b /\ ~ In c a.
Proof.
  intros c. induction t as [|x t IH]; intros a b H; [discriminate|]. cbn in H. destruct (Z.eqb_spec x c) as [->|N].
  - injection H as <- <-. split; auto.
  - destruct (split_at_char c t) as [[u v]|] eqn:E; [|discriminate]. cbn in H. injection H as <- <-. destruct (IH u v eq_refl) as [-> M]. split; auto. intros [X|X]; auto.
Qed.
Lemma split_at_none : forall c t, split_at_char c t = None -> ~ In c t.
Proof. intros c. induction t as [|x t IH]; intros H X; [destruct X|]. cbn in H. destruct (Z.eqb_spec x c) as [->|N]; [discriminate|]. destruct (split_at_char c t) as [[u v]|] eqn:E; [discriminate|]. destruct X as [X|X]; [congruence|]. exact (IH eq_refl X). Qed.
Lemma split_char_one : forall c a, ~ In c a -> split_char c a = [a].
Proof. intros c. induction a as [|x a IH]; intros N; auto. cbn. destruct (Z.eqb_spec x c) as [->|]. { destruct N. left. auto. } rewrite IH by (intros X; apply N; right; auto). reflexivity. Qed.
Lemma split_char_cons : forall c a b, ~ In c a -> split_char c (a ++ c :: b) = a :: split_char c b.
Proof. intros c. induction a as [|x a IH]; intros b N; cbn. { rewrite Z.eqb_refl. reflexivity. } destruct (Z.eqb_spec x c) as [->|]. { destruct N. left. auto. } rewrite IH by (intros X; apply N; right; auto). reflexivity. Qed.

(** *** Lower case *)
Definition asc (t : text) : Prop := Forall (fun c => 0 <= c < 128) t.
Lemma lower_ascii : forall lc t, lower_ok lc -> asc t -> lower lc t = map ascii_lc t.
Proof. intros lc t [L _]. induction t as [|c t IH]; intros H; auto. inversion H; subst. unfold lower in *. cbn. rewrite L by auto. rewrite IH by auto. reflexivity. Qed.
Lemma lower_app : forall lc a b, lower lc (a ++ b) = lower lc a ++ lower lc b.
Proof. intros. unfold lower. apply flat_map_app. Qed.
(** Characters that lower-casing leaves alone. *)
Definition small (c : char) : Prop := 0 <= c < 128 /\ ~ (65 <= c <= 90).
Lemma small_lc : forall c, small c -> ascii_lc c = c.
Proof. intros c [A B]. unfold ascii_lc. destruct (Z.leb_spec 65 c), (Z.leb_spec c 90); cbn; auto; lia. Qed.
Lemma lower_small : forall lc t, lower_ok lc -> Forall small t -> lower lc t = t.
Proof.
  intros lc t L H. rewrite lower_ascii; auto. 2: { eapply Forall_impl; [|exact H]. intros c [X _]. exact X. }
  induction H as [|c t C H IH]; auto. cbn. rewrite small_lc, IH by auto. reflexivity.
Qed.

(** *** Hexadecimal *)
Lemma hex_char_digit : forall d c, hex_char d c -> hex_digit (ascii_lc c) = Ok d /\ 0 <= c < 128 /\ is_ws c = false /\ 0 <= d <= 15.
Proof.
  intros d c [[D ->]|[D [-> | ->]]].
  - assert (d = 0 \/ d = 1 \/ d = 2 \/ d = 3 \/ d = 4 \/ d = 5 \/ d = 6 \/ d = 7 \/ d = 8 \/ d = 9) as C by lia. repeat (destruct C as [-> |C]; [vm_compute; intuition congruence|]). subst. vm_compute. intuition congruence.
  - assert (d = 10 \/ d = 11 \/ d = 12 \/ d = 13 \/ d = 14 \/ d = 15) as C by lia. repeat (destruct C as [-> |C]; [vm_compute; intuition congruence|]). subst. vm_compute. intuition congruence.
  - assert (d = 10 \/ d = 11 \/ d = 12 \/ d = 13 \/ d = 14 \/ d = 15) as C by lia. repeat (destruct C as [-> |C]; [vm_compute; intuition congruence|]). subst. vm_compute. intuition congruence.
Qed.
Lemma hex_digit_char : forall c d, hex_digit c = Ok d -> hex_char d c.
Proof.
  intros c d H. unfold hex_digit in H. destruct ((48 <=? c) && (c <=? 57)) eqn:A. { apply andb_true_iff in A. rewrite !Z.leb_le in A. injection H as <-. left. lia. }
  destruct ((97 <=? c) && (c <=? 102)) eqn:B; [|discriminate]. apply andb_true_iff in B. rewrite !Z.leb_le in B. injection H as <-. right. lia.
Qed.
Lemma hex_digit_panic : forall c, hex_digit c <> Panic.
Proof. intros c. unfold hex_digit. destruct (_ && _); [discriminate|]. destruct (_ && _); discriminate. Qed.
Lemma hex_lc_inv : forall c d, 0 <= c < 128 -> hex_digit (ascii_lc c) = Ok d -> hex_char d c.
Proof.
  intros c d H E. apply hex_digit_char in E. unfold ascii_lc in E. destruct ((65 <=? c) && (c <=? 90)) eqn:A; [|exact E].
  apply andb_true_iff in A. rewrite !Z.leb_le in A. destruct E as [E|E]; [lia|]. right. split; lia.
Qed.
Section Hex.
Variable rnd : Q -> Q.
Variable lc : char -> text.
Variable parse_float : text -> option Q.
Hypothesis L : lower_ok lc.
Lemma lc_hex : forall d c, hex_char d c -> lc c = [ascii_lc c].
Proof. intros d c H. apply L. apply (hex_char_digit d c H). Qed.
Ltac hx := repeat match goal with H : hex_char ?d ?c |- _ => rewrite (proj1 (hex_char_digit d c H)); clear H end; cbn [bind].
Lemma parse_hex3 : forall x y z a b c, hex_char x a -> hex_char y b -> hex_char z c -> parse_hex rnd lc [a; b; c] = Ok (rgb_of (x * 17) (y * 17) (z * 17)).
Proof. intros x y z a b c A B C. unfold parse_hex, lower. cbn [flat_map]. rewrite (lc_hex x a), (lc_hex y b), (lc_hex z c) by auto. cbn [app]. hx. reflexivity. Qed.
Lemma parse_hex4 : forall x y z w a b c d, hex_char x a -> hex_char y b -> hex_char z c -> hex_char w d ->
  parse_hex rnd lc [a; b; c; d] = Ok (rgba_of (x * 17) (y * 17) (z * 17) (rnd (inject_Z (w * 17) / inject_Z 255))).
Proof. intros x y z w a b c d A B C D. unfold parse_hex, lower. cbn [flat_map]. rewrite (lc_hex x a), (lc_hex y b), (lc_hex z c), (lc_hex w d) by auto. cbn [app]. hx. reflexivity. Qed.
Lemma parse_hex6 : forall r1 r2 g1 g2 b1 b2 a b c d e f, hex_char r1 a -> hex_char r2 b -> hex_char g1 c -> hex_char g2 d -> hex_char b1 e -> hex_char b2 f ->
  parse_hex rnd lc [a; b; c; d; e; f] = Ok (rgb_of (r1 * 16 + r2) (g1 * 16 + g2) (b1 * 16 + b2)).
Proof. intros. unfold parse_hex, lower. cbn [flat_map]. rewrite (lc_hex r1 a), (lc_hex r2 b), (lc_hex g1 c), (lc_hex g2 d), (lc_hex b1 e), (lc_hex b2 f) by auto. cbn [app]. unfold hex_pair. hx. reflexivity. Qed.
Lemma parse_hex8 : forall r1 r2 g1 g2 b1 b2 a1 a2 a b c d e f g h, hex_char r1 a -> hex_char r2 b -> hex_char g1 c -> hex_char g2 d -> hex_char b1 e -> hex_char b2 f -> hex_char a1 g -> hex_char a2 h ->
  parse_hex rnd lc [a; b; c; d; e; f; g; h] = Ok (rgba_of (r1 * 16 + r2) (g1 * 16 + g2) (b1 * 16 + b2) (rnd (inject_Z (a1 * 16 + a2) / inject_Z 255))).
Proof. intros. unfold parse_hex, lower. cbn [flat_map]. rewrite (lc_hex r1 a), (lc_hex r2 b), (lc_hex g1 c), (lc_hex g2 d), (lc_hex b1 e), (lc_hex b2 f), (lc_hex a1 g), (lc_hex a2 h) by auto. cbn [app]. unfold hex_pair. hx. reflexivity. Qed.

(** Everything accepted is hexadecimal. *)
Lemma parse_hex_all : forall s c, parse_hex rnd lc s = Ok c -> In (length (lower lc s)) [3; 4; 6; 8]%nat /\ Forall (fun x => exists d, hex_digit x = Ok d) (lower lc s).
Proof.
  intros s c H. unfold parse_hex in H. destruct (lower lc s) as [|c1 [|c2 [|c3 [|c4 [|c5 [|c6 [|c7 [|c8 [|c9 r]]]]]]]]]; try discriminate; unfold hex_pair in H;
  repeat match type of H with context [hex_digit ?x] => let E := fresh in destruct (hex_digit x) eqn:E; cbn [bind] in H; try discriminate H end;
  (split; [cbn; tauto|]); repeat (constructor; [eauto|]); constructor.
Qed.
Lemma lower_hex : forall s, scalar s -> Forall (fun x => exists d, hex_digit x = Ok d) (lower lc s) -> Forall (fun c => exists d, hex_char d c) s /\ length (lower lc s) = length s.
Proof.
  intros s. induction s as [|c s IH]; intros S H; [split; [constructor|reflexivity]|]. inversion S as [|? ? S0 S1]; subst. unfold lower in H. cbn [flat_map] in H. apply Forall_app in H. destruct H as [H1 H2].
  destruct (IH S1 H2) as [A B]. destruct (Z_lt_le_dec c 128) as [C|C].
  - unfold lower in *. cbn [flat_map]. rewrite (proj1 L c) in * by lia. inversion H1 as [|? ? [d D] _]; subst. split; [constructor; auto; exists d; apply hex_lc_inv; auto; lia|]. cbn. rewrite B. reflexivity.
  - exfalso. destruct (proj2 L c C) as (x & X & N). rewrite Forall_forall in H1. destruct (H1 x X) as (d & D). exact (N d (hex_digit_char x d D)).
Qed.
Lemma parse_hex_panic : forall s, parse_hex rnd lc s <> Panic.
Proof.
  intros s H. unfold parse_hex, hex_pair in H. destruct (lower lc s) as [|c1 [|c2 [|c3 [|c4 [|c5 [|c6 [|c7 [|c8 [|c9 r]]]]]]]]]; try discriminate;
  repeat match type of H with context [hex_digit ?x] => let E := fresh in destruct (hex_digit x) eqn:E; cbn [bind] in H; try discriminate H; try (apply hex_digit_panic in E; exact E) end.
Qed.
(** Colours starting with '#'. *)
Lemma parse_hash : forall s, parse rnd lc parse_float (35 :: s) = parse_hex rnd lc (trim_end s).
Proof.
  intros s. unfold parse. assert (T : trim (35 :: s) = 35 :: trim_end s).
  { unfold trim, trim_end. change (trim_start (35 :: s)) with (35 :: s). cbn [rev]. assert (E : forall a, trim_start (a ++ [35]) = trim_start a ++ [35]).
    { induction a as [|x a IH]; [reflexivity|]. cbn. destruct (is_ws x); auto. } rewrite E, rev_app_distr. reflexivity. }
  rewrite T. unfold lower. cbn [flat_map]. rewrite (proj1 L 35) by lia. change (ascii_lc 35) with 35. reflexivity.
Qed.
Lemma trim_end_solid : forall s w, blank w -> Forall (fun c => is_ws c = false) s -> trim_end (s ++ w) = s.
Proof.
  intros s w B S. destruct s as [|c s]. { cbn. unfold trim_end. rewrite <- (app_nil_r (rev w)), trim_start_blank by (apply blank_rev; auto). reflexivity. }
  unfold trim_end. rewrite rev_app_distr, trim_start_blank by (apply blank_rev; auto). rewrite trim_start_ok by (apply solid_ends; auto; discriminate). apply rev_involutive.
Qed.
End Hex.
