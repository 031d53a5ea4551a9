(** Values: every text that spells a value is parsed to it. *)
From Coq Require Import String ZArith QArith List Bool Lia.
From Verif Require Import Text_Model Css_Model Variables_Model Variables_Spec Variables_Proofs Keys_Proofs Sheet_Model Sheet_Spec Sheet_Proofs.
From Verif Require Words_Spec Words_Proofs Colour3_Proofs.
Import ListNotations.
Notation length := List.length.
Open Scope Z_scope.
Open Scope list_scope.

Definition sep (k : text) : Prop := exists c r, k = c :: r /\ In c [32; 9; 10; 13; 59; 125].
Inductive ending : bool -> text -> Prop :=
| en_stop : forall b g d r, gap g -> d = 59 \/ d = 125 -> ending b (g ++ d :: r)
| en_important : forall g g2 d r, gap g -> g <> [] -> gap g2 -> d = 59 \/ d = 125 -> ending true (g ++ str "!important" ++ g2 ++ d :: r).
Lemma gap_sep : forall g k, gap g -> g <> [] -> sep (g ++ k).
Proof. intros g k G N. destruct g as [|c g]; [congruence|]. inversion G; subst. exists c, (g ++ k). split; [reflexivity|]. cbn. lia. Qed.
Lemma gap_sep2 : forall g k, gap g -> sep k -> sep (g ++ k).
Proof. intros g k G K. destruct g as [|c g]; [exact K|]. apply gap_sep; [exact G|discriminate]. Qed.
Lemma ending_sep : forall b k, ending b k -> sep k.
Proof.
  intros b k H. destruct H as [b g d r G D|g g2 d r G N G2 D].
  - apply gap_sep2; [exact G|]. exists d, r. split; [reflexivity|]. cbn. lia.
  - apply gap_sep; assumption.
Qed.
Lemma trim_id : forall t, match t with [] => True | c :: _ => is_ws c = false end -> trim_start t = t.
Proof. intros [|c t] H; [reflexivity|]. cbn. rewrite H. reflexivity. Qed.
Lemma trim_gap : forall g t, gap g -> match t with [] => True | c :: _ => is_ws c = false end -> trim_start (g ++ t) = t.
Proof. intros g t G H. rewrite trim_start_app by (apply gap_blank; exact G). apply trim_id. exact H. Qed.
(** what is left of an ending after its blanks *)
Definition bare (b : bool) (k : text) : Prop :=
  (exists d r, k = d :: r /\ (d = 59 \/ d = 125)) \/ (b = true /\ exists g2 d r, k = str "!important" ++ g2 ++ d :: r /\ gap g2 /\ (d = 59 \/ d = 125)).
Lemma ending_split : forall b k, ending b k -> exists g r, k = g ++ r /\ gap g /\ bare b r /\ (b = true -> g = [] -> exists d s, r = d :: s /\ (d = 59 \/ d = 125)).
Proof.
  intros b k H. destruct H as [b g d r G D|g g2 d r G N G2 D].
  - exists g, (d :: r). split; [reflexivity|]. split; [exact G|]. split; [left; eauto|]. intros. eauto.
  - eexists g, _. split; [reflexivity|]. split; [exact G|]. split; [right; split; [reflexivity|]; exists g2, d, r; auto|]. intros _ E. congruence.
Qed.
Lemma bare_ws : forall b k, bare b k -> match k with [] => True | c :: _ => is_ws c = false end.
Proof. intros b k [[d [r [-> [-> | ->]]]]|[_ [g2 [d [r [-> _]]]]]]; reflexivity. Qed.
Lemma bare_tough : forall b k, bare b k -> tough k.
Proof. intros b k [[d [r [-> [-> | ->]]]]|[_ [g2 [d [r [-> _]]]]]]; reflexivity. Qed.
Lemma ending_trim : forall b k, ending b k -> exists g r, k = g ++ r /\ gap g /\ bare b r /\ trim_start k = r.
Proof.
  intros b k H. destruct (ending_split b k H) as [g [r [-> [G [B _]]]]]. exists g, r. split; [reflexivity|]. split; [exact G|]. split; [exact B|].
  apply trim_gap; [exact G|]. exact (bare_ws b r B).
Qed.
Lemma opt_no1 : forall A (p : parser A) b k, ending b k -> (forall r, bare b r -> p r = Err) -> popt (preceded multispace1 p) k = Ok (k, None).
Proof.
  intros A p b k H P. destruct (ending_split b k H) as [g [r [-> [G [B _]]]]]. apply popt_err.
  destruct g as [|c g].
  - apply pre_err. apply ms1_none. exact (bare_tough b r B).
  - rewrite (pre_ok _ _ _ _ _ _ _ (ms1 (c :: g) r G ltac:(discriminate) (bare_tough b r B))). apply P. exact B.
Qed.
Lemma opt_no0 : forall A (p : parser A) b k, ending b k -> (forall r, bare b r -> p r = Err) -> popt (preceded multispace0 p) k = Ok (k, None).
Proof.
  intros A p b k H P. destruct (ending_split b k H) as [g [r [-> [G [B _]]]]]. apply popt_err.
  rewrite (pre_ok _ _ _ _ _ _ _ (ms0 g r G (bare_tough b r B))). apply P. exact B.
Qed.
Ltac bares := let d := fresh in let r := fresh in let g := fresh in let b := fresh in
  intros ? [[d [r [-> [-> | ->]]]]|[_ [g [d [r [-> [? [-> | ->]]]]]]]]; reflexivity.

(** *** Numbers *)
Lemma decimal_digits : forall t n, decimal_value t n -> Forall (fun c => is_digit c = true) t.
Proof.
  induction 1 as [|t n d H IH R]; [constructor|]. apply Forall_app. split; [exact IH|]. constructor; [|constructor].
  unfold is_digit. apply andb_true_iff. split; apply Z.leb_le; lia.
Qed.
Lemma decimal_digits_value : forall t n, decimal_value t n -> digits_value t = n.
Proof.
  induction 1 as [|t n d H IH R]; [reflexivity|]. unfold digits_value in *. etransitivity; [apply fold_left_app|]. cbn [fold_left]. rewrite <- IH. unfold char. lia.
Qed.
Lemma decimal_app_digits : forall t f n, decimal_value (t ++ f) n -> Forall (fun c => is_digit c = true) t /\ Forall (fun c => is_digit c = true) f.
Proof. intros t f n H. apply decimal_digits in H. apply Forall_app in H. exact H. Qed.
Lemma digit1_ok : forall t k, t <> [] -> Forall (fun c => is_digit c = true) t -> match k with [] => True | c :: _ => is_digit c = false end -> digit1 (t ++ k) = Ok (k, t).
Proof. intros t k N F K. unfold digit1, take_while1. rewrite (span_stop is_digit t k F K). destruct t; [congruence|reflexivity]. Qed.
Definition num_stop (k : text) : Prop := match k with [] => True | c :: _ => is_digit c = false /\ c <> 46 end.
Lemma sep_num : forall k, sep k -> num_stop k.
Proof. intros k [c [r [-> I]]]. cbn in I. repeat (destruct I as [<-|I]; [split; [reflexivity|lia]|]). contradiction. Qed.
Lemma sep_digit : forall k, sep k -> match k with [] => True | c :: _ => is_digit c = false end.
Proof. intros k H. apply sep_num in H. destruct k; [exact I|]. apply H. Qed.

Lemma tag_no : forall x p c k, c <> x -> tag (x :: p) (c :: k) = Err.
Proof. intros x p c k N. unfold tag. cbn [starts_with]. destruct (x =? c) eqn:E; [apply Z.eqb_eq in E; congruence|reflexivity]. Qed.

Ltac swap_span e := match type of e with _ = ?v => match goal with |- context[span not_end ?x] => replace (span not_end x) with v by (symmetry; exact e) end end.

Section Values.
Variable alnum : char -> bool.
Variable lower : text -> text.
Variables rnd rnd64 : Q -> Q.
Variables parse_f32 parse_f64 : text -> option Q.
Variable C : Type.
Variable colour : text -> res C.
Variable with_alpha : C -> Q -> C.
Variable theme_colour : text -> C.
Variable transparent : C.
Hypothesis A : alnum_like alnum.
Hypothesis Imp : colour (str "!important") = Err.

Notation value := (value C).
Notation declaration := (declaration value).
Notation parse_scalar := (parse_scalar rnd64).
Notation parse_number := (parse_number rnd64).
Notation parse_color := (parse_color rnd parse_f32 C colour with_alpha theme_colour).
Notation colour_text := (colour_text rnd parse_f32 C colour with_alpha theme_colour).
Notation base_colour := (base_colour C colour theme_colour).

Lemma unsigned_ok : forall q t k, number_text q t -> num_stop k ->
  exists w f, pbind digit1 (fun whole => pbind (popt (preceded (pchar 46) digit1)) (fun fraction => pret (whole, fraction))) (t ++ k) = Ok (k, (w, f))
    /\ decimal false w (match f with Some f => f | None => [] end) = q.
Proof.
  intros q t k H K. destruct H as [t n N D|t f n N Nf D].
  - exists t, None. split.
    + rewrite (pbind_ok _ _ _ _ _ _ _ (digit1_ok t k N (decimal_digits t n D) ltac:(destruct k; [exact I|apply K]))).
      assert (P : popt (preceded (pchar 46) digit1) k = Ok (k, None)).
      { apply popt_err. apply pre_err. destruct k as [|c k]; [reflexivity|]. apply pchar_no. apply K. }
      rewrite (pbind_ok _ _ _ _ _ _ _ P). reflexivity.
    + unfold decimal. rewrite app_nil_r. rewrite (decimal_digits_value t n D). change (10 ^ Z.of_nat (length (@nil char))) with 1.
      unfold Qdiv, Qmult, inject_Z. cbn. rewrite Z.mul_1_r. reflexivity.
  - destruct (decimal_app_digits t f n D) as [F1 F2]. exists t, (Some f). split.
    + rewrite <- !app_assoc. cbn [str app].
      rewrite (pbind_ok _ _ _ _ _ _ _ (digit1_ok t (46 :: f ++ k) N F1 eq_refl)).
      assert (P : popt (preceded (pchar 46) digit1) (46 :: f ++ k) = Ok (k, Some f)).
      { apply popt_ok. rewrite (pre_ok _ _ _ _ _ _ _ (pchar_yes 46 _)). apply digit1_ok; auto. destruct k; [exact I|apply K]. }
      rewrite (pbind_ok _ _ _ _ _ _ _ P). reflexivity.
    + unfold decimal. rewrite (decimal_digits_value _ n D). reflexivity.
Qed.
Lemma number_head : forall q t, number_text q t -> exists c r, t = c :: r /\ 48 <= c <= 57.
Proof.
  assert (G : forall t, Forall (fun c => is_digit c = true) t -> t <> [] -> exists c r, t = c :: r /\ 48 <= c <= 57).
  { intros t F N. destruct t as [|c t]; [congruence|]. inversion F; subst. exists c, t. split; [reflexivity|]. unfold is_digit in H1. apply andb_true_iff in H1. rewrite !Z.leb_le in H1. exact H1. }
  intros q t H. destruct H as [t n N D|t f n N Nf D].
  - apply G; [exact (decimal_digits t n D)|exact N].
  - destruct (decimal_app_digits t f n D) as [F1 F2]. destruct (G t F1 N) as [c [r [-> R]]]. eexists c, _. split; [reflexivity|exact R].
Qed.
Lemma number_ok : forall q t k, signed_text q t -> num_stop k -> parse_number (t ++ k) = Ok (k, rnd64 q).
Proof.
  intros q t k H K. unfold Sheet_Model.parse_number. destruct H as [q t H|q t H].
  - destruct (number_head q t H) as [c [r [Et R]]]. destruct (unsigned_ok q t k H K) as [w [f [P E]]].
    assert (S : popt (pchar 45) (t ++ k) = Ok (t ++ k, None)) by (apply popt_err; rewrite Et; apply pchar_no; lia).
    rewrite (pbind_ok _ _ _ _ _ _ _ S). unfold pbind, pret in *.
    destruct (digit1 (t ++ k)) as [[r1 a1]| |]; try discriminate. destruct (popt (preceded (pchar 46) digit1) r1) as [[r2 a2]| |]; try discriminate.
    injection P as -> -> ->. rewrite <- E. reflexivity.
  - destruct (unsigned_ok q t k H K) as [w [f [P E]]].
    assert (S : popt (pchar 45) ((str "-" ++ t) ++ k) = Ok (t ++ k, Some tt)) by reflexivity.
    rewrite (pbind_ok _ _ _ _ _ _ _ S). unfold pbind, pret in *.
    destruct (digit1 (t ++ k)) as [[r1 a1]| |]; try discriminate. destruct (popt (preceded (pchar 46) digit1) r1) as [[r2 a2]| |]; try discriminate.
    injection P as -> -> ->. rewrite <- E. reflexivity.
Qed.
Lemma signed_head : forall q t, signed_text q t -> exists c r, t = c :: r /\ (48 <= c <= 57 \/ c = 45).
Proof.
  intros q t H. destruct H as [q t H|q t H]; destruct (number_head q t H) as [c [r [-> R]]].
  - exists c, r. auto.
  - eexists 45, _. split; [reflexivity|]. auto.
Qed.
Lemma unit_ok : forall u k, u <> Auto -> sep k ->
  popt parse_unit_suffix (str (unit_name u) ++ k) = Ok (k, match u with Cells => None | _ => Some u end).
Proof.
  intros u k N [c [r [-> I]]]. cbn in I.
  destruct u; try congruence; try reflexivity; repeat (destruct I as [<-|I]; [reflexivity|]); contradiction.
Qed.
Lemma digit_ws : forall c, 48 <= c <= 57 \/ c = 45 -> is_ws c = false.
Proof. intros c H. unfold is_ws. repeat rewrite orb_false_iff. rewrite !andb_false_iff, !Z.leb_gt, !Z.eqb_neq. repeat split; lia. Qed.
Lemma scalar_ok : forall s t k, scalar_text rnd64 s t -> sep k -> parse_scalar (t ++ k) = Ok (k, s).
Proof.
  intros s t k H K. unfold Sheet_Model.parse_scalar, trimmed. destruct H as [|q t u H N].
  - rewrite trim_id by reflexivity. apply palt_ok. exact (pmap_ok _ _ _ _ _ _ _ (tag_yes (str "auto") k)).
  - destruct (signed_head q t H) as [c [r [Et R]]]. rewrite <- app_assoc. rewrite trim_id by (rewrite Et; cbn; apply digit_ws; exact R).
    rewrite palt_err.
    2:{ apply pmap_err. rewrite Et. apply (tag_no 97 [117; 116; 111]). lia. }
    assert (NS : num_stop (str (unit_name u) ++ k)).
    { destruct u; try congruence; try (split; [reflexivity|discriminate]). apply sep_num. exact K. }
    rewrite (pbind_ok _ _ _ _ _ _ _ (number_ok q t _ H NS)).
    rewrite (pbind_ok _ _ _ _ _ _ _ (unit_ok u k N K)). destruct u; try congruence; reflexivity.
Qed.
Lemma scalar_head : forall s t, scalar_text rnd64 s t -> exists c r, t = c :: r /\ is_ws c = false /\ space c = false.
Proof.
  intros s t H. destruct H as [|q t u H N].
  - eexists _, _. split; [reflexivity|]. split; reflexivity.
  - destruct (signed_head q t H) as [c [r [-> R]]]. eexists c, _. split; [reflexivity|]. split; [apply digit_ws; exact R|].
    destruct (space c) eqn:E; [|reflexivity]. apply space_gap in E. lia.
Qed.
Lemma scalar_tough : forall s t k, scalar_text rnd64 s t -> tough (t ++ k).
Proof. intros s t k H. destruct (scalar_head s t H) as [c [r [-> [_ S]]]]. exact S. Qed.
Lemma scalar_bare : forall b r, bare b r -> parse_scalar r = Err.
Proof. intros b. bares. Qed.
Lemma next0 : forall s t g k, scalar_text rnd64 s t -> gap g -> sep k -> popt (preceded multispace0 parse_scalar) (g ++ t ++ k) = Ok (k, Some s).
Proof.
  intros s t g k H G K. apply popt_ok. rewrite (pre_ok _ _ _ _ _ _ _ (ms0 g (t ++ k) G (scalar_tough s t k H))). apply scalar_ok; assumption.
Qed.
Lemma next1 : forall s t g k, scalar_text rnd64 s t -> gap g -> g <> [] -> sep k -> preceded multispace1 parse_scalar (g ++ t ++ k) = Ok (k, s).
Proof.
  intros s t g k H G N K. rewrite (pre_ok _ _ _ _ _ _ _ (ms1 g (t ++ k) G N (scalar_tough s t k H))). apply scalar_ok; assumption.
Qed.
Lemma spacing_ok : forall v t b k, spacing_text rnd64 C v t -> ending b k -> parse_spacing rnd64 C (t ++ k) = Ok (k, v).
Proof.
  intros v t b k H K. pose proof (ending_sep b k K) as KS. pose proof (opt_no0 _ _ b k K (scalar_bare b)) as NO.
  unfold parse_spacing. destruct H as [s t H|v h t u g Hv G N Hh|a b' c d ta tb tc td g1 g2 g3 Ha Hb Hc Hd G1 N1 G2 N2 G3 N3].
  - rewrite (pbind_ok _ _ _ _ _ _ _ (scalar_ok s t k H KS)). rewrite (pbind_ok _ _ _ _ _ _ _ NO). reflexivity.
  - rewrite <- !app_assoc. rewrite (pbind_ok _ _ _ _ _ _ _ (scalar_ok v t (g ++ u ++ k) Hv (gap_sep g _ G N))).
    rewrite (pbind_ok _ _ _ _ _ _ _ (next0 h u g k Hh G KS)).
    rewrite (pbind_ok _ _ _ _ _ _ _ NO). rewrite (pbind_ok _ _ _ _ _ _ _ NO). reflexivity.
  - rewrite <- !app_assoc. rewrite (pbind_ok _ _ _ _ _ _ _ (scalar_ok a ta _ Ha (gap_sep g1 _ G1 N1))).
    rewrite (pbind_ok _ _ _ _ _ _ _ (next0 b' tb g1 _ Hb G1 (gap_sep g2 _ G2 N2))).
    rewrite (pbind_ok _ _ _ _ _ _ _ (next0 c tc g2 _ Hc G2 (gap_sep g3 _ G3 N3))).
    rewrite (pbind_ok _ _ _ _ _ _ _ (next0 d td g3 _ Hd G3 KS)). reflexivity.
Qed.
Lemma many_none : forall X (p : parser X) b k, ending b k -> (forall r, bare b r -> p r = Err) -> preceded multispace1 p k = Err.
Proof.
  intros X p b k K P. pose proof (opt_no1 X p b k K P) as NO. unfold popt in NO. destruct (preceded multispace1 p k) as [[r a]| |]; [|reflexivity|discriminate]. discriminate.
Qed.
Lemma scalars_more : forall l u, scalars_text rnd64 l u -> forall g b k, gap g -> g <> [] -> ending b k ->
  many0 (preceded multispace1 parse_scalar) (g ++ u ++ k) = Ok (k, l).
Proof.
  intros l u H. induction H as [s t H|s t g' l u H G' N' Hl IH]; intros g b k G N K.
  - eapply many0_cons; [apply next1; [exact H|exact G|exact N|exact (ending_sep b k K)]| |].
    + rewrite !app_length. destruct g; [congruence|]. cbn. lia.
    + apply many0_nil. exact (many_none _ _ b k K (scalar_bare b)).
  - rewrite <- !app_assoc. eapply many0_cons; [apply next1; [exact H|exact G|exact N|apply gap_sep; assumption]| |apply (IH g' b k G' N' K)].
    rewrite !app_length. destruct g; [congruence|]. cbn. lia.
Qed.
Lemma scalars_ok : forall l t b k, scalars_text rnd64 l t -> ending b k -> parse_scalar_list rnd64 (t ++ k) = Ok (k, l).
Proof.
  intros l t b k H K. unfold parse_scalar_list. destruct H as [s t H|s t g l u H G N Hl].
  - rewrite (pbind_ok _ _ _ _ _ _ _ (scalar_ok s t k H (ending_sep b k K))).
    rewrite (pbind_ok _ _ _ _ _ _ _ (many0_nil _ _ _ (many_none _ _ b k K (scalar_bare b)))). reflexivity.
  - rewrite <- !app_assoc. rewrite (pbind_ok _ _ _ _ _ _ _ (scalar_ok s t _ H (gap_sep g _ G N))).
    rewrite (pbind_ok _ _ _ _ _ _ _ (scalars_more l u Hl g b k G N K)). reflexivity.
Qed.

(** integers *)
Lemma unsigned_value : forall n t, int_text n t -> parse_unsigned 65535 t = Some n.
Proof.
  intros n t [N [D L]]. unfold parse_unsigned. pose proof (decimal_digits t n D) as F. pose proof (decimal_digits_value t n D) as V.
  assert (E : match t with 43 :: r => r | _ => t end = t).
  { destruct t as [|c t]; [reflexivity|]. inversion F as [|? ? H1 H2]; subst. unfold is_digit in H1. apply andb_true_iff in H1. rewrite !Z.leb_le in H1.
    destruct (Z.eq_dec c 43) as [->|X]; [lia|].
    repeat match goal with |- match ?p with _ => _ end = _ => is_var p; destruct p; try reflexivity end; congruence. }
  rewrite E. destruct t as [|c t]; [congruence|]. cbn [is_nil]. rewrite V.
  assert (FB : forallb is_digit (c :: t) = true) by (apply forallb_forall; apply Forall_forall; exact F).
  rewrite FB. apply Z.leb_le in L. rewrite L. reflexivity.
Qed.
Lemma u16_ok : forall n t k, int_text n t -> sep k -> plain_u16 (t ++ k) = Ok (k, n).
Proof.
  intros n t k H K. unfold plain_u16. destruct (H) as [N [D L]].
  rewrite (pbind_ok _ _ _ _ _ _ _ (digit1_ok t k N (decimal_digits t n D) (sep_digit k K))). rewrite (unsigned_value n t H). reflexivity.
Qed.
Lemma int_head : forall n t, int_text n t -> exists c r, t = c :: r /\ is_ws c = false /\ space c = false.
Proof.
  intros n t [N [D L]]. destruct t as [|c t]; [congruence|]. pose proof (decimal_digits _ n D) as F. inversion F as [|? ? H1 H2]; subst.
  unfold is_digit in H1. apply andb_true_iff in H1. rewrite !Z.leb_le in H1. exists c, t. split; [reflexivity|]. split; [apply digit_ws; lia|].
  destruct (space c) eqn:E; [|reflexivity]. apply space_gap in E. lia.
Qed.
Lemma u16_trim : forall n t k, int_text n t -> sep k -> parse_u16 (t ++ k) = Ok (k, n).
Proof.
  intros n t k H K. unfold parse_u16, trimmed. destruct (int_head n t H) as [c [r [E [W S]]]].
  rewrite trim_id by (rewrite E; exact W). apply u16_ok; assumption.
Qed.
Lemma u16_bare : forall b r, bare b r -> plain_u16 r = Err. Proof. intros b. bares. Qed.
Lemma u16_bare2 : forall b r, bare b r -> parse_u16 r = Err. Proof. intros b. bares. Qed.

(** *** Colours *)
Lemma plain_token : forall t k, Forall plain t -> sep k -> colour_token 0 (t ++ k) = (t, k).
Proof.
  intros t k F [c [r [-> I]]]. induction F as [|x t H F IH]; cbn [app colour_token].
  - cbn in I. repeat (destruct I as [<-|I]; [reflexivity|]). contradiction.
  - destruct H as [W N]. cbn in N.
    destruct (x =? 40) eqn:E1; [apply Z.eqb_eq in E1; lia|]. destruct (x =? 41) eqn:E2; [apply Z.eqb_eq in E2; lia|].
    destruct (x =? 59) eqn:E3; [apply Z.eqb_eq in E3; lia|]. destruct (x =? 125) eqn:E4; [apply Z.eqb_eq in E4; lia|].
    rewrite W. cbn [orb andb]. rewrite IH. reflexivity.
Qed.
Lemma arg_token : forall a k, Forall argument a -> colour_token 1 (a ++ 41 :: k) = (a ++ [41], k).
Proof.
  intros a k F. induction F as [|x a N F IH]; cbn [app colour_token]; [reflexivity|]. unfold argument in N. cbn in N.
  destruct (x =? 40) eqn:E1; [apply Z.eqb_eq in E1; lia|]. destruct (x =? 41) eqn:E2; [apply Z.eqb_eq in E2; lia|].
  change (1 =? 0) with false. rewrite !andb_false_r. rewrite IH. reflexivity.
Qed.
Lemma call_token : forall f a k, Forall plain f -> Forall argument a -> colour_token 0 (f ++ 40 :: a ++ 41 :: k) = (f ++ 40 :: a ++ [41], k).
Proof.
  intros f a k F G. induction F as [|x t H F IH]; cbn [app colour_token].
  - change (40 =? 40) with true. cbv iota. change (0 + 1) with 1. rewrite (arg_token a k G). reflexivity.
  - destruct H as [W N]. cbn in N.
    destruct (x =? 40) eqn:E1; [apply Z.eqb_eq in E1; lia|]. destruct (x =? 41) eqn:E2; [apply Z.eqb_eq in E2; lia|].
    destruct (x =? 59) eqn:E3; [apply Z.eqb_eq in E3; lia|]. destruct (x =? 125) eqn:E4; [apply Z.eqb_eq in E4; lia|].
    rewrite W. cbn [orb andb]. rewrite IH. reflexivity.
Qed.
Lemma token_ok : forall t k, token t -> sep k -> colour_token 0 (t ++ k) = (t, k).
Proof.
  intros t k H K. destruct H as [t N F|f a N F G].
  - apply plain_token; assumption.
  - replace ((f ++ str "(" ++ a ++ str ")") ++ k) with (f ++ 40 :: a ++ 41 :: k) by (rewrite <- !app_assoc; reflexivity). apply call_token; assumption.
Qed.
Lemma token_head : forall t, token t -> exists c r, t = c :: r /\ is_ws c = false.
Proof.
  intros t H. destruct H as [t N F|f a N F G].
  - destruct t as [|c t]; [congruence|]. inversion F as [|? ? [W _] _]; subst. eauto.
  - destruct f as [|c f]; [congruence|]. inversion F as [|? ? [W _] _]; subst. eexists c, _. split; [reflexivity|exact W].
Qed.
Lemma base_head : forall c t, base_colour c t -> exists x r, t = x :: r /\ is_ws x = false.
Proof.
  intros c t H. destruct H as [c t H _ _|n F]; [exact (token_head t H)|]. eexists _, _. split; reflexivity.
Qed.
Lemma base_ok : forall c t k, base_colour c t -> sep k ->
  parse_color (t ++ k) = Ok (parse_optional_alpha rnd parse_f32 C with_alpha k c).
Proof.
  intros c t k H K. unfold Sheet_Model.parse_color, trimmed. destruct (base_head c t H) as [x [r [E W]]].
  rewrite trim_id by (rewrite E; exact W). destruct H as [c t T D Ok'|n F].
  - rewrite (token_ok t k T K). rewrite E in D. rewrite E. destruct (x =? 36) eqn:X; [apply Z.eqb_eq in X; subst; exfalso; apply D; reflexivity|].
    rewrite <- E. rewrite Ok'. reflexivity.
  - rewrite (plain_token (str "$" ++ n) k); [reflexivity| |exact K]. constructor; [split; [reflexivity|cbn; lia]|exact F].
Qed.
Lemma percent_none : forall t, match t with [] => True | c :: _ => digit_or_dot c = false /\ c <> 37 end -> percent rnd parse_f32 t = None.
Proof.
  intros [|c t] H; [reflexivity|]. destruct H as [D N]. unfold percent. cbn [span]. rewrite D. apply Z.eqb_neq in N. rewrite N. reflexivity.
Qed.
Lemma bare_percent : forall b k, bare b k -> percent rnd parse_f32 k = None.
Proof. intros b k H. apply percent_none. destruct H as [[d [r [-> [-> | ->]]]]|[_ [g2 [d [r [-> _]]]]]]; split; (reflexivity || (cbn; lia)). Qed.
Lemma percent_word : forall t k, Forall (in_name alnum) t -> sep k -> percent rnd parse_f32 (t ++ k) = None.
Proof.
  intros t k F K. unfold percent. pose proof (span_join digit_or_dot (t ++ k)) as J. pose proof (span_true digit_or_dot (t ++ k)) as T.
  destruct (span digit_or_dot (t ++ k)) as [a b] eqn:S. cbn in J, T. destruct b as [|c b]; [reflexivity|].
  destruct (c =? 37) eqn:E; [|reflexivity]. apply Z.eqb_eq in E. subst c. exfalso.
  assert (G : forall a t, Forall (in_name alnum) t -> Forall (fun c => digit_or_dot c = true) a -> t ++ k = a ++ 37 :: b -> False).
  { clear - A K. intros a t. revert a. induction t as [|x t IH]; intros a F T E.
    - cbn in E. destruct K as [c [r [-> I]]]. destruct a as [|y a]; cbn in E; injection E as -> E.
      + cbn in I. lia.
      + inversion T; subst. cbn in I. unfold digit_or_dot, is_digit in H1. rewrite orb_true_iff, andb_true_iff, !Z.leb_le, Z.eqb_eq in H1. lia.
    - inversion F; subst. destruct a as [|y a]; cbn in E; injection E as -> E.
      + apply (name_ascii alnum A 37 37 H1); try reflexivity; lia.
      + inversion T; subst. exact (IH a H2 H4 E). }
  exact (G a t F T J).
Qed.
Lemma percent_ok : forall g n q k, gap g -> n <> [] -> Forall (fun x => 48 <= x <= 57 \/ x = 46) n -> parse_f32 n = Some q ->
  percent rnd parse_f32 (trim_start (g ++ n ++ 37 :: k)) = Some (k, rnd (q / 100)%Q).
Proof.
  intros g n q k G N F P.
  assert (W : match n ++ 37 :: k with [] => True | x :: _ => is_ws x = false end).
  { destruct n as [|x n]; [congruence|]. inversion F; subst. cbn. unfold is_ws. repeat rewrite orb_false_iff. rewrite !andb_false_iff, !Z.leb_gt, !Z.eqb_neq. repeat split; lia. }
  rewrite (trim_gap g _ G W).
  assert (S : span digit_or_dot (n ++ 37 :: k) = (n, 37 :: k)).
  { apply span_stop; [|reflexivity]. eapply Forall_impl; [|exact F]. intros x H. cbn beta in H |- *. unfold digit_or_dot, is_digit. rewrite orb_true_iff, andb_true_iff, !Z.leb_le, Z.eqb_eq. lia. }
  unfold percent. destruct (span digit_or_dot _) as [a b] eqn:S2 in |- *. pose proof (eq_trans (eq_sym S) S2) as X. injection X as <- <-.
  destruct n as [|x n]; [congruence|]. cbn [is_nil negb andb]. change (37 =? 37) with true. cbn [andb]. rewrite P. reflexivity.
Qed.
Lemma alpha_ok : forall c g n q k, gap g -> n <> [] -> Forall (fun x => 48 <= x <= 57 \/ x = 46) n -> parse_f32 n = Some q ->
  parse_optional_alpha rnd parse_f32 C with_alpha (g ++ n ++ 37 :: k) c = (k, with_alpha c (rnd (q / 100)%Q)).
Proof. intros c g n q k G N F P. unfold parse_optional_alpha. rewrite (percent_ok g n q k G N F P). reflexivity. Qed.
Lemma colour_head : forall c t, colour_text c t -> exists x r, t = x :: r /\ is_ws x = false.
Proof.
  intros c t H. destruct H as [c t H|c t g n q H _ _ _ _ _]; destruct (base_head c t H) as [x [r [-> W]]]; eexists x, _; (split; [reflexivity|exact W]).
Qed.
Lemma ws_space : forall c, is_ws c = false -> space c = false.
Proof. intros c H. destruct (space c) eqn:E; [|reflexivity]. apply space_gap in E. destruct E as [-> |[-> |[-> | ->]]]; discriminate. Qed.
Lemma colour_tough : forall c t k, colour_text c t -> tough (t ++ k).
Proof. intros c t k H. destruct (colour_head c t H) as [x [r [-> W]]]. cbn. apply ws_space. exact W. Qed.
(** a colour, whatever follows: blanks and then no percentage *)
Lemma colour_ok : forall c t k, colour_text c t -> sep k -> percent rnd parse_f32 (trim_start k) = None -> parse_color (t ++ k) = Ok (k, c).
Proof.
  intros c t k H K P. destruct H as [c t H|c t g n q H G N Nn F Q].
  - rewrite (base_ok c t k H K). unfold parse_optional_alpha. rewrite P. reflexivity.
  - rewrite <- !app_assoc. rewrite (base_ok c t _ H (gap_sep g _ G N)). change (str "%" ++ k) with (37 :: k). rewrite (alpha_ok c g n q k G Nn F Q). reflexivity.
Qed.
Lemma colour_end : forall c t b k, colour_text c t -> ending b k -> parse_color (t ++ k) = Ok (k, c).
Proof.
  intros c t b k H K. apply colour_ok; [exact H|exact (ending_sep b k K)|]. destruct (ending_trim b k K) as [g [r [_ [_ [B ->]]]]]. exact (bare_percent b r B).
Qed.
Lemma colour_bare : forall b r, bare b r -> parse_color r = Err.
Proof.
  intros b r [[d [s [-> [-> | ->]]]]|[_ [g [d [s [-> [G D]]]]]]]; [reflexivity|reflexivity|].
  unfold Sheet_Model.parse_color, trimmed. rewrite trim_id by reflexivity.
  rewrite (plain_token (str "!important") (g ++ d :: s)).
  - cbn [str]. change (33 =? 36) with false. cbv iota beta. change (colour _) with (colour (str "!important")). rewrite Imp. reflexivity.
  - repeat (apply Forall_cons; [split; [reflexivity|cbn; lia]|]). apply Forall_nil.
  - apply gap_sep2; [exact G|]. exists d, s. split; [reflexivity|]. cbn. lia.
Qed.

(** *** Words *)
Lemma sep_stop : forall k, sep k -> stop alnum k.
Proof. intros k [c [r [-> I]]]. cbn in I. repeat (destruct I as [<-|I]; [apply (not_name alnum A); [lia|reflexivity|lia|lia]|]). contradiction. Qed.
Lemma ident_head : forall t, ident alnum t -> exists c r, t = c :: r /\ is_ws c = false /\ space c = false.
Proof.
  intros t [N F]. destruct t as [|c t]; [congruence|]. inversion F; subst. exists c, t. split; [reflexivity|].
  pose proof (name_not_ws alnum A c H1) as W. split; [exact W|apply ws_space; exact W].
Qed.
Lemma ident_tough : forall t k, ident alnum t -> tough (t ++ k).
Proof. intros t k H. destruct (ident_head t H) as [c [r [-> [_ S]]]]. exact S. Qed.
Lemma word_ok : forall X (words : list (string * X)) n v t k, word_text alnum lower n t -> lookup (str n) words = Some v -> sep k ->
  parse_word alnum lower words (t ++ k) = Ok (k, v).
Proof.
  intros X words n v t k [I L] E K. unfold parse_word. rewrite (pbind_ok _ _ _ _ _ _ _ (ident_ok alnum t k I (sep_stop k K))). rewrite L, E. reflexivity.
Qed.
Lemma word_bare : forall X (words : list (string * X)) b r, bare b r -> parse_word alnum lower words r = Err.
Proof.
  intros X words b r H. unfold parse_word. apply pbind_err. apply ident_no. destruct H as [[d [s [-> [-> | ->]]]]|[_ [g [d [s [-> [G D]]]]]]]; apply (not_name alnum A); (cbn; lia) || reflexivity.
Qed.
Lemma lookup_in : forall X (l : list (string * X)) t v, lookup t l = Some v -> exists n, In (n, v) l /\ t = str n.
Proof.
  intros X l t v. induction l as [|[n w] l IH]; cbn; [discriminate|]. destruct (text_eqb t (str n)) eqn:E.
  - intro H. injection H as <-. apply text_eqb_iff in E. exists n. auto.
  - intro H. destruct (IH H) as [m [I J]]. exists m. auto.
Qed.
Lemma kind_ok : forall b t k, kind_text alnum lower b t -> sep k -> parse_word alnum lower border_kinds (t ++ k) = Ok (k, b).
Proof.
  intros b t k H K. destruct H as [b t H|t H].
  - apply (word_ok _ _ (border_name b) b t k H); [destruct b; reflexivity|exact K].
  - apply (word_ok _ _ "hidden" BNone t k H); [reflexivity|exact K].
Qed.
Lemma kind_ident : forall b t, kind_text alnum lower b t -> ident alnum t. Proof. intros b t [b' t' [I _]|t' [I _]]; exact I. Qed.
Lemma kind_lookup : forall i b, ident alnum i -> lookup (lower i) border_kinds = Some b -> kind_text alnum lower b i.
Proof.
  intros i b I H. apply lookup_in in H. destruct H as [n [J E]]. unfold border_kinds in J. cbn in J.
  repeat (destruct J as [J|J]; [injection J as <- <-; first [apply b_hidden; split; assumption | apply b_named; split; assumption]|]). contradiction.
Qed.
Lemma edge_ok : forall v t b k, edge_text alnum lower rnd parse_f32 C colour with_alpha theme_colour v t -> ending b k ->
  parse_border_edge alnum lower rnd parse_f32 C colour with_alpha theme_colour (t ++ k) = Ok (k, v).
Proof.
  intros v t b k H K. pose proof (ending_sep b k K) as KS. unfold parse_border_edge, trimmed at 1.
  destruct H as [kd t H|kd t g c u H G N Hc|kd t g c u Hc NK G N H].
  - destruct (ident_head t (kind_ident kd t H)) as [x [r [E [W S]]]]. rewrite trim_id by (rewrite E; exact W).
    apply palt_ok. rewrite (pbind_ok _ _ _ _ _ _ _ (kind_ok kd t k H KS)).
    rewrite (pbind_ok _ _ _ _ _ _ _ (opt_no1 _ _ b k K (colour_bare b))). reflexivity.
  - destruct (ident_head t (kind_ident kd t H)) as [x [r [E [W S]]]]. rewrite <- !app_assoc. rewrite trim_id by (rewrite E; exact W).
    apply palt_ok. rewrite (pbind_ok _ _ _ _ _ _ _ (kind_ok kd t _ H (gap_sep g _ G N))).
    assert (P : popt (preceded multispace1 parse_color) (g ++ u ++ k) = Ok (k, Some c)).
    { apply popt_ok. rewrite (pre_ok _ _ _ _ _ _ _ (ms1 g (u ++ k) G N (colour_tough c u k Hc))). apply (colour_end c u b k Hc K). }
    rewrite (pbind_ok _ _ _ _ _ _ _ P). reflexivity.
  - destruct (colour_head c u Hc) as [x [r [E W]]]. rewrite <- !app_assoc. rewrite trim_id by (rewrite E; exact W).
    rewrite palt_err.
    + assert (P : parse_color (u ++ g ++ t ++ k) = Ok (g ++ t ++ k, c)).
      { apply colour_ok; [exact Hc|apply gap_sep; assumption|]. destruct (kind_ident kd t H) as [Nt Ft].
        rewrite trim_gap; [apply percent_word; assumption|exact G|]. destruct (ident_head t (kind_ident kd t H)) as [y [q [-> [Wy _]]]]. exact Wy. }
      rewrite (pbind_ok _ _ _ _ _ _ _ P). unfold trimmed.
      destruct (ident_head t (kind_ident kd t H)) as [y [q [Ey [Wy Sy]]]]. rewrite (trim_gap g (t ++ k) G) by (rewrite Ey; exact Wy).
      rewrite (pbind_ok _ _ _ _ _ _ _ (kind_ok kd t k H KS)). reflexivity.
    + apply pbind_err. unfold parse_word.
      destruct (parse_ident alnum (u ++ g ++ t ++ k)) as [[r1 i]| |] eqn:P; [|apply pbind_err; exact P|].
      2:{ unfold parse_ident, take_while1 in P. destruct (span (name_char alnum) (u ++ g ++ t ++ k)) as [a' b']. destruct (is_nil a'); discriminate. }
      rewrite (pbind_ok _ _ _ _ _ _ _ P).
      assert (FI : first_ident alnum u i).
      { unfold parse_ident, take_while1 in P. pose proof (span_join (name_char alnum) u) as J. pose proof (span_true (name_char alnum) u) as T. pose proof (span_head (name_char alnum) u) as Hd.
        destruct (span (name_char alnum) u) as [a' b'] eqn:Su. cbn [fst snd] in *.
        assert (Su2 : span (name_char alnum) (u ++ g ++ t ++ k) = (a', b' ++ g ++ t ++ k)).
        { rewrite J. rewrite <- app_assoc. apply span_stop; [exact T|]. destruct b' as [|y b'].
          - pose proof (gap_sep g (t ++ k) G N) as SG. apply sep_stop in SG. destruct g as [|z g]; [congruence|]. apply not_nc. exact SG.
          - exact Hd. }
        rewrite Su2 in P. destruct a' as [|y a']; [discriminate|]. cbn in P. injection P as _ <-. split.
        - split; [discriminate|]. eapply Forall_impl; [|exact T]. intros z Hz. apply (name_char_iff alnum). exact Hz.
        - exists b'. split; [exact J|]. destruct b' as [|z b']; [exact I|]. intro Nz. apply (name_char_iff alnum) in Nz. congruence. }
      destruct (lookup (lower i) border_kinds) as [kd'|] eqn:L; [|reflexivity].
      exfalso. apply (NK i kd' FI). apply kind_lookup; [exact (proj1 FI)|exact L].
Qed.

(** lists of words *)
Lemma list_solid : forall w, list_word w -> Words_Spec.solid w.
Proof. intros w [N F]. split; [exact N|]. eapply Forall_impl; [|exact F]. intros c [H _]. exact H. Qed.
Lemma words_spaced : forall l t, words_text l t -> Words_Spec.spaced l t.
Proof.
  intros l t H. induction H as [w W|w g l t W G N H IH].
  - pose proof (Words_Spec.spaced_last [] w [] (Forall_nil _) (list_solid w W) (Forall_nil _)) as S. cbn in S. rewrite app_nil_r in S. exact S.
  - pose proof (Words_Spec.spaced_cons [] w g l t (Forall_nil _) (list_solid w W) G N IH) as S. exact S.
Qed.
Lemma words_tight : forall l t, words_text l t -> t <> [] /\ tight t.
Proof.
  intros l t H. induction H as [w [N F]|w g l t [N F] G Ng H [IHn [IH1 IH2]]].
  - split; [exact N|]. split.
    + destruct w; [exact I|]. inversion F as [|? ? [W _] _]; exact W.
    + apply Forall_rev in F. destruct (rev w); [exact I|]. inversion F as [|? ? [W _] _]; exact W.
  - split; [destruct w; [congruence|discriminate]|]. split.
    + destruct w; [congruence|]. inversion F as [|? ? [W _] _]; exact W.
    + rewrite !rev_app_distr. destruct (rev t) as [|x q] eqn:E; [|exact IH2]. apply (f_equal (@rev char)) in E. rewrite rev_involutive in E. contradiction.
Qed.
Definition endless (c : char) : Prop := c <> 59 /\ c <> 125.
Lemma blank_endless : forall g, blank g -> Forall endless g.
Proof. intros g H. eapply Forall_impl; [|exact H]. intros c W. split; intros ->; discriminate. Qed.
Lemma words_endless : forall l t, words_text l t -> Forall endless t.
Proof.
  assert (G : forall w, list_word w -> Forall endless w).
  { intros w [_ F]. eapply Forall_impl; [|exact F]. intros c [_ N]. cbn in N. split; lia. }
  intros l t H. induction H as [w W|w g l t W B N H IH]; [exact (G w W)|]. apply Forall_app. split; [exact (G w W)|]. apply Forall_app. split; [apply blank_endless; exact B|exact IH].
Qed.
Lemma endless_span : forall t g d r, Forall endless t -> gap g -> d = 59 \/ d = 125 -> span not_end (t ++ g ++ d :: r) = (t ++ g, d :: r).
Proof.
  intros t g d r F G D. rewrite app_assoc. apply span_stop.
  - apply Forall_app in F as F2 || idtac. apply Forall_app. assert (X : Forall endless (t ++ g)) by (apply Forall_app; split; [exact F|apply blank_endless; apply gap_blank; exact G]).
    apply Forall_app. eapply Forall_impl; [|exact X]. intros c [N1 N2]. unfold not_end. apply Z.eqb_neq in N1, N2. rewrite N1, N2. reflexivity.
  - destruct D as [-> | ->]; reflexivity.
Qed.
Lemma ending_false : forall k, ending false k -> exists g d r, k = g ++ d :: r /\ gap g /\ (d = 59 \/ d = 125).
Proof. intros k H. inversion H; subst. eauto 7. Qed.
Lemma tight_trim_gap : forall t g, tight t -> gap g -> trim (t ++ g) = t.
Proof. intros t g [T1 T2] G. rewrite trim_app_r by (apply gap_blank; exact G). apply trim_tight; assumption. Qed.

Definition attr_fields : list (text_style -> bool) := map snd style_names.
Lemma style_word_spec : forall s w, (lower w = str "none" -> style_word lower s w = Ok no_style)
  /\ (forall n f, In (n, f) style_names -> lower w = str n -> exists s', style_word lower s w = Ok s' /\ f s' = true /\ ts_theme s' = ts_theme s
       /\ forall m h, In (m, h) style_names -> m <> n -> h s' = h s).
Proof.
  intros s w. destruct s as [b d i u u2 k k2 r st o th]. split.
  - intro E. unfold style_word. rewrite E. reflexivity.
  - intros n f H E. unfold style_word. rewrite E. cbn in H.
    repeat (destruct H as [H|H]; [injection H as <- <-; eexists; split; [reflexivity|]; split; [reflexivity|]; split; [reflexivity|];
      intros m h J X; cbn in J; repeat (destruct J as [J|J]; [injection J as <- <-; (congruence || reflexivity)|]); contradiction|]). contradiction.
Qed.
Lemma style_names_distinct : forall n m f h, In (n, f) style_names -> In (m, h) style_names -> str n = str m -> n = m /\ f = h.
Proof.
  intros n m f h H J E. cbn in H, J.
  repeat (destruct H as [H|H]; [injection H as <- <-; repeat (destruct J as [J|J]; [injection J as <- <-; (split; reflexivity) || discriminate|]); contradiction|]). contradiction.
Qed.
Lemma none_no_style : forall n f, In (n, f) style_names -> str n <> str "none" /\ f no_style = false.
Proof. intros n f H. cbn in H. repeat (destruct H as [H|H]; [injection H as <- <-; split; [discriminate|reflexivity]|]). contradiction. Qed.
Definition on_after (ws : list text) (n : string) : Prop :=
  exists before w after, ws = before ++ w :: after /\ lower w = str n /\ forall x, In x after -> lower x <> str "none".
Lemma style_fold : forall ws s, Forall (fun w => lower w = str "none" \/ exists n f, In (n, f) style_names /\ lower w = str n) ws ->
  exists s', style_words lower s ws = Ok s' /\ (ts_theme s = None -> ts_theme s' = None)
    /\ forall n f, In (n, f) style_names -> (f s' = true <-> on_after ws n \/ (f s = true /\ forall x, In x ws -> lower x <> str "none")).
Proof.
  induction ws as [|w ws IH]; intros s F.
  - exists s. split; [reflexivity|]. split; [auto|]. intros n f H. split.
    + intro X. right. split; [exact X|]. intros x [].
    + intros [[b [w [a [E _]]]]|[X _]]; [destruct b; discriminate|exact X].
  - inversion F as [|? ? Hw Fw]; subst. destruct (style_word_spec s w) as [SN SA]. cbn [style_words]. destruct Hw as [E|[n0 [f0 [I0 E]]]].
    + rewrite (SN E). cbn [bind]. destruct (IH no_style Fw) as [s' [R [T V]]]. exists s'. split; [exact R|]. split; [intros _; apply T; reflexivity|].
      intros n f H. rewrite (V n f H). destruct (none_no_style n f H) as [NN NF]. split.
      * intros [[b [x [a [E1 [E2 E3]]]]]|[X _]]; [|congruence]. left. exists (w :: b), x, a. rewrite E1. auto.
      * intros [[b [x [a [E1 [E2 E3]]]]]|[_ X]].
        -- destruct b as [|y b]; cbn in E1; injection E1 as -> ->; [congruence|]. left. exists b, x, a. auto.
        -- exfalso. apply (X w); [left; reflexivity|exact E].
    + destruct (SA n0 f0 I0 E) as [s1 [R1 [F1 [T1 V1]]]]. rewrite R1. cbn [bind]. destruct (IH s1 Fw) as [s' [R [T V]]]. exists s'. split; [exact R|].
      split; [intro X; apply T; congruence|]. destruct (none_no_style n0 f0 I0) as [NN0 _].
      intros n f H. rewrite (V n f H). split.
      * intros [[b [x [a [E1 [E2 E3]]]]]|[X Y]].
        -- left. exists (w :: b), x, a. rewrite E1. auto.
        -- destruct (string_dec n n0) as [->|D].
           ++ left. exists [], w, ws. auto.
           ++ right. rewrite (V1 n f H D) in X. split; [exact X|]. intros x [<-|J]; [congruence|]. exact (Y x J).
      * intros [[b [x [a [E1 [E2 E3]]]]]|[X Y]].
        -- destruct b as [|y b]; cbn in E1; injection E1 as -> ->.
           ++ right. split; [|exact E3]. destruct (style_names_distinct n n0 f f0 H I0 ltac:(congruence)) as [-> ->]. exact F1.
           ++ left. exists b, x, a. auto.
        -- right. split; [|intros x J; apply Y; right; exact J]. destruct (string_dec n n0) as [->|D].
           ++ destruct (style_names_distinct n0 n0 f f0 H I0 eq_refl) as [_ ->]. exact F1.
           ++ rewrite (V1 n f H D). exact X.
Qed.
Lemma style_ext : forall s s', ts_theme s = ts_theme s' -> (forall n f, In (n, f) style_names -> f s = f s') -> s = s'.
Proof.
  intros s s' T H. destruct s as [b d i u u2 k k2 r st o th], s' as [b' d' i' u' u2' k' k2' r' st' o' th'].
  cbn in T. subst th'.
  pose proof (H _ _ (or_introl eq_refl)) as H1. pose proof (H _ _ (or_intror (or_introl eq_refl))) as H2.
  pose proof (H _ _ (or_intror (or_intror (or_introl eq_refl)))) as H3. pose proof (H _ _ (or_intror (or_intror (or_intror (or_introl eq_refl))))) as H4.
  pose proof (H _ _ (or_intror (or_intror (or_intror (or_intror (or_introl eq_refl)))))) as H5.
  pose proof (H _ _ (or_intror (or_intror (or_intror (or_intror (or_intror (or_introl eq_refl))))))) as H6.
  pose proof (H _ _ (or_intror (or_intror (or_intror (or_intror (or_intror (or_intror (or_introl eq_refl)))))))) as H7.
  pose proof (H _ _ (or_intror (or_intror (or_intror (or_intror (or_intror (or_intror (or_intror (or_introl eq_refl))))))))) as H8.
  pose proof (H _ _ (or_intror (or_intror (or_intror (or_intror (or_intror (or_intror (or_intror (or_intror (or_introl eq_refl)))))))))) as H9.
  pose proof (H _ _ (or_intror (or_intror (or_intror (or_intror (or_intror (or_intror (or_intror (or_intror (or_intror (or_introl eq_refl))))))))))) as H10.
  cbn in *. subst. reflexivity.
Qed.
Lemma style_ok : forall s t k, style_text lower s t -> ending false k -> exists g r, k = g ++ r /\ gap g /\ parse_text_style lower (t ++ k) = Ok (r, s).
Proof.
  intros s t k H K. destruct (ending_false k K) as [g [d [r [-> [G D]]]]]. exists g, (d :: r). split; [reflexivity|]. split; [exact G|].
  unfold parse_text_style, trimmed. destruct H as [ws t s W N F V T|n Tn F].
  - destruct (words_tight ws t W) as [Nt [T1 T2]]. rewrite trim_id by (destruct t; [congruence|exact T1]).
    swap_span (endless_span t g d r (words_endless ws t W) G D). rewrite (tight_trim_gap t g (conj T1 T2) G).
    destruct t as [|c t]; [congruence|]. destruct (c =? 36) eqn:E; [apply Z.eqb_eq in E; subst; exfalso; apply N; reflexivity|].
    rewrite (Words_Proofs.spaced_split ws (c :: t) (words_spaced ws _ W)).
    destruct (style_fold ws no_style F) as [s' [R [T' V']]]. rewrite R. cbn [bind]. f_equal. f_equal. apply style_ext; [rewrite T, T'; reflexivity|].
    intros n f H. specialize (V n f H). specialize (V' n f H). destruct (none_no_style n f H) as [_ NF].
    destruct (f s) eqn:E1, (f s') eqn:E2; try reflexivity.
    + assert (X : false = true) by (apply V'; left; apply V; reflexivity). discriminate.
    + destruct (proj1 V' eq_refl) as [X|[X _]]; [|congruence]. apply V in X. discriminate.
  - rewrite trim_id by reflexivity.
    assert (F2 : Forall endless (str "$" ++ n)).
    { constructor; [split; discriminate|]. eapply Forall_impl; [|exact F]. intros c X. cbn in X. split; lia. }
    swap_span (endless_span _ g d r F2 G D). rewrite tight_trim_gap; [reflexivity| |exact G].
    split; [reflexivity|]. destruct Tn as [_ T2]. change (str "$" ++ n) with (36 :: n). cbn [rev].
    destruct (rev n) as [|x q] eqn:E; [reflexivity|]. exact T2.
Qed.
Lemma layers_ok : forall l t k, words_text l t -> ending false k -> exists g r, k = g ++ r /\ gap g /\ parse_layers lower (t ++ k) = Ok (r, map lower l).
Proof.
  intros l t k H K. destruct (ending_false k K) as [g [d [r [-> [G D]]]]]. exists g, (d :: r). split; [reflexivity|]. split; [exact G|].
  unfold parse_layers, trimmed. destruct (words_tight l t H) as [Nt [T1 T2]]. rewrite trim_id by (destruct t; [congruence|exact T1]).
  swap_span (endless_span t g d r (words_endless l t H) G D). rewrite (tight_trim_gap t g (conj T1 T2) G).
  destruct t as [|c t]; [congruence|]. rewrite (Words_Proofs.spaced_split l (c :: t) (words_spaced l _ H)).
  destruct H; reflexivity.
Qed.

(** *** Hatch, keyline, opacity *)
Notation hatch_text := (hatch_text alnum lower rnd parse_f32 C colour with_alpha theme_colour).
Lemma pattern_ok : forall p t k, pattern_text alnum lower p t -> sep k -> parse_hatch_pattern alnum lower (t ++ k) = Ok (k, p).
Proof.
  intros p t k H K. destruct H as [p n t P [I L]|c q Q N N34 NP].
  - unfold parse_hatch_pattern. pose proof (ident_ok alnum t k I (sep_stop k K)) as IO. destruct I as [Nt F]. destruct t as [|x t]; [congruence|]. inversion F; subst.
    cbn [app] in *. assert (D1 : x <> 34) by (apply (name_ascii alnum A x 34 H1); (lia || reflexivity)). assert (D2 : x <> 39) by (apply (name_ascii alnum A x 39 H1); (lia || reflexivity)).
    apply Z.eqb_neq in D1, D2. rewrite D1, D2. cbn [orb]. rewrite (pbind_ok _ _ _ _ _ _ _ IO). unfold hatch_parse. rewrite L.
    destruct p; cbn in P; try discriminate; injection P as <-; reflexivity.
  - unfold parse_hatch_pattern. cbn [app]. assert (E : (q =? 34) || (q =? 39) = true) by (destruct Q as [-> | ->]; reflexivity). rewrite E.
    cbn in N. assert (D : c <> q) by (destruct Q as [-> | ->]; lia). cbn [split_at_char]. apply Z.eqb_neq in D. rewrite D. rewrite Z.eqb_refl. cbn [option_map fst snd].
    assert (HP : hatch_parse lower [c] = Some (HCustom c)).
    { unfold hatch_parse. destruct (lookup (lower [c]) hatch_names) as [p|] eqn:L.
      - exfalso. apply lookup_in in L. destruct L as [n [J E2]]. apply (NP p n); [|exact E2]. cbn in J.
        repeat (destruct J as [J|J]; [injection J as <- <-; reflexivity|]). contradiction.
      - unfold trim_char, trim_end_char. cbn [trim_start_char]. assert (X34 : (c =? 34) = false) by (apply Z.eqb_neq; exact N34). assert (X39 : (c =? 39) = false) by (apply Z.eqb_neq; lia).
        rewrite X34. cbn [rev app trim_start_char]. rewrite X34. cbn [rev app trim_start_char]. rewrite X39. cbn [rev app trim_start_char]. rewrite X39. reflexivity. }
    rewrite HP. reflexivity.
Qed.
Lemma pattern_head : forall p t, pattern_text alnum lower p t -> exists c r, t = c :: r /\ is_ws c = false.
Proof.
  intros p t H. destruct H as [p n t P [I L]|c q Q N N34 NP].
  - destruct (ident_head t I) as [x [r [-> [W _]]]]. eauto.
  - eexists q, _. split; [reflexivity|]. destruct Q as [-> | ->]; reflexivity.
Qed.
Lemma hatch_ok : forall v t b k, hatch_text v t -> ending b k -> exists g r, k = g ++ r /\ gap g
  /\ parse_hatch alnum lower rnd parse_f32 C colour with_alpha theme_colour (t ++ k) = Ok (r, v).
Proof.
  intros v t b k H K.
  destruct H as [p t g c u P G N Hc|p t g c u g1 n q g2 m o P G N Hb G1 N1 Nn Fn Qn G2 Nm Fm Qm].
  - destruct (ending_trim b k K) as [gk [r [Ek [Gk [B Tr]]]]]. exists gk, r. split; [exact Ek|]. split; [exact Gk|]. unfold parse_hatch, trimmed at 1. destruct (pattern_head p t P) as [x [q [E W]]]. rewrite <- !app_assoc. rewrite trim_id by (rewrite E; exact W).
    rewrite (pbind_ok _ _ _ _ _ _ _ (pattern_ok p t _ P (gap_sep g _ G N))). unfold trimmed at 1.
    destruct (colour_head c u Hc) as [y [q2 [Ey Wy]]]. rewrite (trim_gap g (u ++ k) G) by (rewrite Ey; exact Wy).
    rewrite (pbind_ok _ _ _ _ _ _ _ (colour_end c u b k Hc K)). unfold trimmed. rewrite Tr. rewrite (bare_percent b r B). reflexivity.
  - exists [], k. split; [reflexivity|]. split; [apply Forall_nil|]. unfold parse_hatch, trimmed at 1. destruct (pattern_head p t P) as [x [q0 [E W]]]. rewrite <- !app_assoc. rewrite trim_id by (rewrite E; exact W).
    rewrite (pbind_ok _ _ _ _ _ _ _ (pattern_ok p t _ P (gap_sep g _ G N))). unfold trimmed at 1.
    destruct (base_head c u Hb) as [y [q2 [Ey Wy]]]. rewrite (trim_gap g (u ++ _) G) by (rewrite Ey; exact Wy).
    change (str "%" ++ g2 ++ m ++ str "%" ++ k) with (37 :: g2 ++ m ++ 37 :: k).
    assert (PC : parse_color (u ++ g1 ++ n ++ 37 :: g2 ++ m ++ 37 :: k) = Ok (g2 ++ m ++ 37 :: k, with_alpha c (rnd (q / 100)%Q))).
    { rewrite (base_ok c u _ Hb (gap_sep g1 _ G1 N1)). rewrite (alpha_ok c g1 n q _ G1 Nn Fn Qn). reflexivity. }
    rewrite (pbind_ok _ _ _ _ _ _ _ PC). unfold trimmed.
    rewrite (percent_ok g2 m o k G2 Nm Fm Qm). reflexivity.
Qed.
(** a quoted pattern of none or several characters, neither quotes nor a name *)
Lemma trim_start_char_id : forall c t, ~ In c t -> trim_start_char c t = t.
Proof. intros c [|x t] N; [reflexivity|]. cbn. assert (D : x <> c) by (intro E; apply N; left; exact E). apply Z.eqb_neq in D. rewrite D. reflexivity. Qed.
Lemma trim_char_id : forall c t, ~ In c t -> trim_char c t = t.
Proof.
  intros c t N. unfold trim_char, trim_end_char. rewrite (trim_start_char_id c t N).
  rewrite trim_start_char_id by (rewrite <- in_rev; exact N). apply rev_involutive.
Qed.
Lemma hatch_refused : forall g q w k, gap g -> q = 34 \/ q = 39 -> ~ In 34 w -> ~ In 39 w -> List.length w <> 1%nat ->
  (forall p n, pattern_name p = Some n -> lower w <> str n) ->
  parse_hatch alnum lower rnd parse_f32 C colour with_alpha theme_colour (g ++ [q] ++ w ++ [q] ++ k) = Err.
Proof.
  intros g q w k G Q D S L N. unfold parse_hatch, trimmed at 1. rewrite (trim_gap g ([q] ++ _) G) by (destruct Q as [-> | ->]; reflexivity).
  unfold pbind at 1, parse_hatch_pattern. cbn [app]. assert (E : (q =? 34) || (q =? 39) = true) by (destruct Q as [-> | ->]; reflexivity). rewrite E.
  rewrite Colour3_Proofs.split_at_first by (destruct Q as [-> | ->]; assumption). unfold hatch_parse.
  destruct (lookup (lower w) hatch_names) as [p|] eqn:K.
  - exfalso. apply lookup_in in K. destruct K as [n [J E2]]. apply (N p n); [|exact E2]. cbn in J.
    repeat (destruct J as [J|J]; [injection J as <- <-; reflexivity|]). contradiction.
  - rewrite (trim_char_id 34 w D), (trim_char_id 39 w S). destruct w as [|x [|y w]]; [reflexivity|cbn in L; congruence|reflexivity].
Qed.
Lemma keyline_ok : forall s t g c u b k, word_text alnum lower (line_name s) t -> gap g -> g <> [] -> colour_text c u -> ending b k ->
  parse_keyline alnum lower rnd parse_f32 C colour with_alpha theme_colour transparent ((t ++ g ++ u) ++ k) = Ok (k, VKeyline s c).
Proof.
  intros s t g c u b k H G N Hc K. unfold parse_keyline, trimmed at 1. rewrite <- !app_assoc.
  destruct (ident_head t (proj1 H)) as [x [q [E [W _]]]]. rewrite trim_id by (rewrite E; exact W).
  assert (L : lookup (str (line_name s)) keyline_styles = Some s) by (destruct s; reflexivity).
  rewrite (pbind_ok _ _ _ _ _ _ _ (word_ok _ _ _ s t _ H L (gap_sep g _ G N))). unfold trimmed.
  destruct (colour_head c u Hc) as [y [q2 [Ey Wy]]]. rewrite (trim_gap g (u ++ k) G) by (rewrite Ey; exact Wy).
  assert (P : pmap parse_color (VKeyline s) (u ++ k) = Ok (k, VKeyline s c)) by (apply pmap_ok; exact (colour_end c u b k Hc K)).
  destruct s; try exact P.
  assert (X : at_end (u ++ k) = false); [|rewrite X; exact P].
  { assert (Z1 : y <> 59 /\ y <> 125).
    { clear - Hc Ey. assert (T : forall t y q, token t -> t = y :: q -> y <> 59 /\ y <> 125).
      { intros t z r T Et. destruct T as [t N F|f a N F F2].
        - subst. inversion F as [|? ? [_ X] _]; subst. cbn in X. lia.
        - destruct f as [|z' f]; [congruence|]. injection Et as -> _. inversion F as [|? ? [_ X] _]; subst. cbn in X. lia. }
      assert (Bc : forall c t y q, base_colour c t -> t = y :: q -> y <> 59 /\ y <> 125).
      { intros c0 t z r Hb Et. destruct Hb as [c0 t Ht _ _|n F]; [exact (T t z r Ht Et)|]. cbn in Et. injection Et as <- _. lia. }
      destruct Hc as [c t Hb|c t g n q Hb _ _ _ _ _]; [exact (Bc c t y q2 Hb Ey)|].
      destruct (base_head c t Hb) as [z [r [Et _]]]. subst t. cbn in Ey. injection Ey as <- _. exact (Bc c (z :: r) z r Hb eq_refl). }
    rewrite Ey. cbn. destruct Z1 as [Z1 Z2]. apply Z.eqb_neq in Z1, Z2. rewrite Z1, Z2. reflexivity. }
Qed.
Lemma no_keyline_ok : forall t k, word_text alnum lower "none" t -> ending false k -> exists g r, k = g ++ r /\ gap g
  /\ parse_keyline alnum lower rnd parse_f32 C colour with_alpha theme_colour transparent (t ++ k) = Ok (r, VKeyline LNone transparent).
Proof.
  intros t k H K. destruct (ending_false k K) as [g [d [r [-> [G D]]]]]. exists g, (d :: r). split; [reflexivity|]. split; [exact G|].
  unfold parse_keyline, trimmed at 1. destruct (ident_head t (proj1 H)) as [x [q [E [W _]]]]. rewrite trim_id by (rewrite E; exact W).
  rewrite (pbind_ok _ _ _ _ _ _ _ (word_ok _ keyline_styles "none" LNone t _ H eq_refl (ending_sep _ _ K))). unfold trimmed.
  rewrite (trim_gap g (d :: r) G) by (destruct D as [-> | ->]; reflexivity). destruct D as [-> | ->]; reflexivity.
Qed.
Lemma opacity_ok : forall q t k, opacity_text rnd64 parse_f64 q t -> sep k -> parse_opacity rnd64 parse_f64 (t ++ k) = Ok (k, q).
Proof.
  intros q t k H K. unfold parse_opacity, trimmed. destruct H as [q t H|q t H|q t n N D P].
  - destruct (signed_head q t H) as [c [r [E R]]]. rewrite trim_id by (rewrite E; apply digit_ws; exact R).
    apply palt_ok. assert (S : scalar_text rnd64 (Scalar (rnd64 q) Cells) t).
    { pose proof (s_number rnd64 q t Cells H ltac:(discriminate)) as X. cbn in X. rewrite app_nil_r in X. exact X. }
    exact (pmap_ok _ _ _ _ _ _ _ (scalar_ok _ t k S K)).
  - destruct (signed_head q t H) as [c [r [E R]]]. rewrite trim_id by (rewrite E; apply digit_ws; exact R).
    apply palt_ok. pose proof (s_number rnd64 q t Percent H ltac:(discriminate)) as S.
    exact (pmap_ok _ _ _ _ _ _ _ (scalar_ok _ _ k S K)).
  - rewrite trim_id by reflexivity. rewrite palt_err by (apply pmap_err; reflexivity).
    assert (T : take_while1 (fun c => is_digit c || (c =? 46) || (c =? 45)) ((str "." ++ t) ++ k) = Ok (k, str "." ++ t)).
    { unfold take_while1. rewrite span_stop; [reflexivity| |].
      - constructor; [reflexivity|]. eapply Forall_impl; [|exact (decimal_digits t n D)]. intros c X. cbn beta. rewrite X. reflexivity.
      - destruct K as [c [r [-> I]]]. cbn in I. repeat (destruct I as [<-|I]; [reflexivity|]). contradiction. }
    rewrite (pbind_ok _ _ _ _ _ _ _ T). rewrite P. reflexivity.
Qed.
End Values.
