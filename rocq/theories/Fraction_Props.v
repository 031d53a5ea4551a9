(** C01, C02, C03: exact rational arithmetic and remainder-carry distribution. *)
From Coq Require Import ZArith QArith Qround List.
From Verif Require Import Fraction_Model Fraction_Spec Fraction_Proofs.
Import ListNotations.
Open Scope Z_scope.

(** C01. Every value built through the API is canonical and denotes the rational
    the expression means. *)
Theorem C01_api_canonical_and_exact : forall e,
  canonical (feval e) /\ (value (feval e) == qeval e)%Q.
Proof. exact feval_correct. Qed.
Print Assumptions C01_api_canonical_and_exact.

(** C01. Structural equality (the derived [PartialEq]) is equality of rationals. *)
Theorem C01_eq_is_rational_eq : forall e e',
  feval e = feval e' <-> (qeval e == qeval e')%Q.
Proof.
  exact (fun e e' =>
    conj
      (fun H => Qeq_trans _ _ _ (Qeq_sym _ _ (proj2 (feval_correct e)))
                 (Qeq_trans _ _ _ (eq_ind_r (fun f => (value f == value (feval e'))%Q) (Qeq_refl _) H)
                    (proj2 (feval_correct e'))))
      (fun H => proj2 (canonical_eq_iff _ _ (proj1 (feval_correct e)) (proj1 (feval_correct e')))
                 (Qeq_trans _ _ _ (proj2 (feval_correct e))
                    (Qeq_trans _ _ _ H (Qeq_sym _ _ (proj2 (feval_correct e'))))))).
Qed.
Print Assumptions C01_eq_is_rational_eq.

Example C01_witness :
  feval (EAdd (ENew 6 (-9)) (EMulRatio (EInt 5) 3 10)) = Frac 5 6.
Proof. vm_compute. reflexivity. Qed.

(** C01. Zero denominators give zero, as documented. *)
Theorem C01_zero_denominator : forall n, frac_new n 0 = frac_zero.
Proof. exact (fun n => eq_refl). Qed.
Print Assumptions C01_zero_denominator.

(** C02. *)
Theorem C02_floor_fract : forall e,
  let f := feval e in
  frac_floor f = Qfloor (qeval e) /\
  (0 <= value (frac_fract f))%Q /\ (value (frac_fract f) < 1)%Q /\
  (inject_Z (frac_floor f) + value (frac_fract f) == value f)%Q.
Proof.
  exact (fun e =>
    let C := proj1 (feval_correct e) in
    conj (eq_trans (frac_floor_value _ C) (Qfloor_proper _ _ (proj2 (feval_correct e))))
      (conj (proj1 (frac_fract_range _ C))
        (conj (proj2 (frac_fract_range _ C)) (frac_floor_fract _ C)))).
Qed.
Print Assumptions C02_floor_fract.

Example C02_witness :
  frac_floor (feval (ENew (-7) 3)) = -3 /\ frac_fract (feval (ENew (-7) 3)) = Frac 2 3.
Proof. vm_compute. split; reflexivity. Qed.

(** C03. After any number [k] of shares the cells handed out are the floor of the
    exact sum of those shares. *)
Theorem C03_carry_prefix_exact : forall shares k,
  Forall canonical shares -> (k <= length shares)%nat ->
  zsum (firstn k (carry_loop frac_zero shares)) = Qfloor (qsum (map value (firstn k shares))).
Proof. exact carry_prefix_exact. Qed.
Print Assumptions C03_carry_prefix_exact.

Theorem C03_carry_total_exact : forall shares total,
  Forall canonical shares -> (qsum (map value shares) == inject_Z total)%Q ->
  zsum (carry_loop frac_zero shares) = total.
Proof. exact carry_total_exact. Qed.
Print Assumptions C03_carry_total_exact.

Theorem C03_each_share_rounded : forall shares k s c,
  Forall canonical shares ->
  nth_error shares k = Some s -> nth_error (carry_loop frac_zero shares) k = Some c ->
  Qfloor (value s) <= c <= Qceiling (value s).
Proof.
  exact (fun shares k s c HF =>
    carry_loop_each shares frac_zero k s c canonical_zero (Qle_refl 0) (eq_refl Lt) HF).
Qed.
Print Assumptions C03_each_share_rounded.

Theorem C03_one_cell_count_per_share : forall shares,
  length (carry_loop frac_zero shares) = length shares.
Proof. exact (fun shares => carry_loop_length shares frac_zero). Qed.
Print Assumptions C03_one_cell_count_per_share.

(** 25 cells among 3 equal children: 8, 8, 9. *)
Example C03_witness :
  let shares := [frac_new 25 3; frac_new 25 3; frac_new 25 3] in
  Forall canonical shares /\ (qsum (map value shares) == inject_Z 25)%Q /\
  carry_loop frac_zero shares = [8; 8; 9].
Proof.
  split; [repeat constructor|]. split; [reflexivity | vm_compute; reflexivity].
Qed.
