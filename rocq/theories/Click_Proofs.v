(** Lemmas on collecting actions. *)
From Coq Require Import ZArith List Bool Arith Lia Sorted.
From Verif Require Import Text_Model Name_Model Click_Model Click_Spec.
From Verif Require Hover_Model Hover_Spec Hover_Proofs.
Import ListNotations.
Open Scope nat_scope.
Open Scope list_scope.

Lemma before_irrefl : forall p, ~ before p p.
Proof. induction p as [|a p IH]; cbn; [tauto|]. intros [H | [_ H]]; [lia|]. apply IH. exact H. Qed.

Lemma sorted_app : forall l1 l2, StronglySorted before l1 -> StronglySorted before l2 ->
  (forall x y, In x l1 -> In y l2 -> before x y) -> StronglySorted before (l1 ++ l2).
Proof.
  intros l1 l2 H1 H2 H. induction H1 as [|x r Hr IH Hx]; [exact H2|].
  cbn. constructor.
  - apply IH. intros a b Ia Ib. apply H; [right|]; assumption.
  - apply Forall_app. split; [exact Hx|]. apply Forall_forall. intros y Iy. apply H; [left; reflexivity|exact Iy].
Qed.
Lemma sorted_cons : forall i l, StronglySorted before l -> StronglySorted before (map (cons i) l).
Proof.
  intros i l H. induction H as [|x r Hr IH Hx]; cbn; constructor; [exact IH|].
  apply Forall_forall. intros y Iy. apply in_map_iff in Iy. destruct Iy as (z & <- & Iz). cbn. right. split; [reflexivity|].
  rewrite Forall_forall in Hx. apply Hx. exact Iz.
Qed.

Section User.
Variable ut : bool.

Lemma takes_iff : forall k, takes ut k = true <-> active ut k.
Proof.
  intros k. unfold active, Hover_Spec.is_user. split.
  - destruct k; cbn; intros E; try discriminate E; try (left; tauto). right. split; [eauto|exact E].
  - intros [H | [(p & a & ->) H]]; [|exact H]. cbn in H. repeat destruct H as [<- | H]; try reflexivity; destruct H.
Qed.

(** *** The actions with their places *)
Fixpoint kids_listed (g : node -> list (list nat * text)) (i : nat) (ks : list node) : list (list nat * text) :=
  match ks with
  | [] => []
  | c :: r => map (fun e => (i :: fst e, snd e)) (g c) ++ kids_listed g (S i) r
  end.
Fixpoint listed (f : nat) (n : node) : list (list nat * text) :=
  match f with
  | 0 => []
  | S f' =>
      match n with
      | N k p ks =>
          (if takes ut k then match p with Some a => [([], a)] | None => [] end else []) ++
          (if Hover_Model.walks k then kids_listed (listed f') 0 ks else [])
      end
  end.

Lemma kids_listed_in : forall g ks i q a, In (q, a) (kids_listed g i ks) <->
  exists j r c, q = (i + j) :: r /\ nth_error ks j = Some c /\ In (r, a) (g c).
Proof.
  intros g. induction ks as [|c r IH]; intros i q a; cbn.
  - split; [intros []|]. intros ([|j] & ? & ? & _ & E & _); discriminate E.
  - rewrite in_app_iff, in_map_iff, IH. split.
    + intros [([r0 a0] & E & I) | (j & r0 & c0 & -> & E & I)].
      * cbn in E. injection E as <- <-. exists 0, r0, c. rewrite Nat.add_0_r. auto.
      * exists (S j), r0, c0. rewrite Nat.add_succ_r. auto.
    + intros ([|j] & r0 & c0 & -> & E & I); cbn in E.
      * injection E as <-. left. exists (r0, a). rewrite Nat.add_0_r. auto.
      * right. exists j, r0, c0. rewrite Nat.add_succ_r. auto.
Qed.

Lemma kids_listed_sorted : forall g ks i, (forall c, StronglySorted before (map fst (g c))) -> StronglySorted before (map fst (kids_listed g i ks)).
Proof.
  intros g ks i H. revert i. induction ks as [|c r IH]; intros i; cbn; [constructor|].
  rewrite map_app, map_map. cbn. rewrite <- (map_map fst (cons i)).
  apply sorted_app; [apply sorted_cons; apply H|apply IH|].
  intros x y Ix Iy. apply in_map_iff in Ix, Iy. destruct Ix as (x0 & <- & _). destruct Iy as ([y0 a] & <- & Iy).
  apply kids_listed_in in Iy. destruct Iy as (j & r0 & c0 & E & _). cbn. rewrite E. cbn. left. lia.
Qed.

Lemma listed_sorted : forall f n, StronglySorted before (map fst (listed f n)).
Proof.
  induction f as [|f IH]; intros [k p ks]; cbn; [constructor|]. rewrite map_app. apply sorted_app.
  - destruct (takes ut k); [destruct p|]; cbn; repeat constructor.
  - destruct (Hover_Model.walks k); [|constructor]. apply kids_listed_sorted. exact IH.
  - intros x y Ix Iy.
    assert (x = []) by (destruct (takes ut k); [destruct p|]; cbn in Ix; intuition congruence). subst x.
    destruct (Hover_Model.walks k); [|destruct Iy]. apply in_map_iff in Iy. destruct Iy as ([q a] & <- & Iy).
    apply kids_listed_in in Iy. destruct Iy as (j & r0 & c0 & -> & _). exact I.
Qed.

Lemma kids_listed_snd : forall f ks i, (forall n, fst (collect ut f n) = map snd (listed f n)) ->
  concat (map fst (map (collect ut f) ks)) = map snd (kids_listed (listed f) i ks).
Proof.
  intros f ks i H. revert i. induction ks as [|c r IH]; intros i; cbn; [reflexivity|].
  rewrite map_app, H, <- (IH (S i)). f_equal. rewrite map_map. reflexivity.
Qed.
Lemma concat_none : forall ks : list node, concat (map fst (map (fun c => (@nil text, c)) ks)) = [].
Proof. induction ks as [|c r IH]; cbn; auto. Qed.
Lemma listed_snd : forall f n, fst (collect ut f n) = map snd (listed f n).
Proof.
  induction f as [|f IH]; intros [k p ks]; [reflexivity|]. cbn [collect listed fst]. rewrite map_app. f_equal.
  - destruct (takes ut k); [destruct p|]; reflexivity.
  - destruct (Hover_Model.walks k); [apply kids_listed_snd; exact IH|apply concat_none].
Qed.

Lemma height_kid : forall ks i x, nth_error ks i = Some x -> height x <= fold_right (fun c m => Nat.max (height c) m) 0 ks.
Proof.
  induction ks as [|y r IH]; intros [|i] x E; try discriminate E; cbn.
  - injection E as <-. lia.
  - specialize (IH i x E). lia.
Qed.

Lemma listed_in : forall q f n a, height n <= f ->
  (In (q, a) (listed f n) <-> exists x, at_place n q = Some x /\ in_tree n q /\ active ut (n_kind x) /\ n_pending x = Some a).
Proof.
  induction q as [|i r IH]; intros f [k p ks] a Hf; (destruct f as [|f]; [cbn in Hf; lia|]); cbn [listed]; rewrite in_app_iff.
  - cbn [at_place in_tree]. split.
    + intros [I | I].
      * exists (N k p ks). cbn [n_kind n_pending]. rewrite <- takes_iff. destruct (takes ut k); [|destruct I].
        destruct p as [b|]; [|destruct I]. destruct I as [E | []]. injection E as <-. auto.
      * destruct (Hover_Model.walks k); [|destruct I]. apply kids_listed_in in I. destruct I as (j & r & c & E & _). discriminate E.
    + intros (x & E & _ & A & P). injection E as <-. cbn [n_kind n_pending] in *. apply takes_iff in A. rewrite A, P. left. left. reflexivity.
  - pose proof (Hover_Proofs.walks_iff k) as WI. cbn [at_place in_tree n_kids n_kind]. split.
    + intros [I | I].
      * destruct (takes ut k); [destruct p|]; cbn in I; intuition discriminate.
      * destruct (Hover_Model.walks k) eqn:W; [|destruct I]. apply kids_listed_in in I. destruct I as (j & r0 & c & E & Ec & I).
        cbn in E. injection E as -> ->. rewrite Ec.
        assert (Hh : height c <= f) by (pose proof (height_kid ks j c Ec); cbn in Hf; lia).
        apply (IH f c a Hh) in I. destruct I as (x & X1 & X2 & X3 & X4). exists x. tauto.
    + intros (x & E & [T1 T2] & A & P). right. destruct (nth_error ks i) as [c|] eqn:Ei; [|discriminate E].
      apply WI in T1. rewrite T1. apply kids_listed_in. exists i, r, c. split; [reflexivity|]. split; [exact Ei|].
      assert (Hh : height c <= f) by (pose proof (height_kid ks i c Ei); cbn in Hf; lia).
      apply (IH f c a Hh). exists x. auto.
Qed.

(** *** What is left *)
Lemma collect_at : forall q f n, height n <= f ->
  option_map n_kind (at_place (snd (collect ut f n)) q) = option_map n_kind (at_place n q) /\
  (in_tree n q <-> in_tree (snd (collect ut f n)) q) /\
  (forall x y, at_place n q = Some x -> at_place (snd (collect ut f n)) q = Some y ->
     (in_tree n q -> active ut (n_kind x) -> n_pending y = None) /\
     (~ active ut (n_kind x) -> n_pending y = n_pending x)).
Proof.
  induction q as [|i r IH]; intros f [k p ks] Hf; (destruct f as [|f]; [cbn in Hf; lia|]); cbn [collect snd].
  - cbn. split; [reflexivity|]. split; [tauto|]. intros x y E1 E2. injection E1 as <-. injection E2 as <-. cbn.
    rewrite <- takes_iff. destruct (takes ut k); split; intros; try reflexivity; congruence.
  - pose proof (Hover_Proofs.walks_iff k) as WI. cbn [at_place in_tree n_kids n_kind].
    destruct (Hover_Model.walks k) eqn:W; rewrite map_map, nth_error_map;
      destruct (nth_error ks i) as [c|] eqn:Ei; cbn [option_map snd].
    + assert (Hh : height c <= f) by (pose proof (height_kid ks i c Ei); cbn in Hf; lia).
      destruct (IH f c Hh) as (A & B & C). split; [exact A|]. split; [tauto|].
      intros x y E1 E2. destruct (C x y E1 E2) as [C1 C2]. split; [|exact C2]. tauto.
    + split; [reflexivity|]. split; [tauto|]. discriminate.
    + split; [reflexivity|]. split; [tauto|]. intros x y E1 E2. rewrite E1 in E2. injection E2 as <-.
      split; [|reflexivity]. intros [T _]. apply WI in T. discriminate T.
    + split; [reflexivity|]. split; [tauto|]. discriminate.
Qed.

(** *** The event *)
Lemma at_index_nth : forall i f l j, nth_error (at_index i f l) j = if Nat.eqb i j then option_map f (nth_error l j) else nth_error l j.
Proof.
  induction i as [|i IH]; intros f [|x r] [|j]; cbn; try reflexivity.
  - destruct (i =? j)%nat; reflexivity.
  - apply IH.
Qed.
Lemma update_at : forall q p g n,
  option_map n_kind (at_place (update p g n) q) = option_map n_kind (at_place n q) /\
  (in_tree n q <-> in_tree (update p g n) q) /\
  (forall x y, at_place n q = Some x -> at_place (update p g n) q = Some y ->
     (p = q -> n_pending y = store g (n_kind x) (n_pending x)) /\ (p <> q -> n_pending y = n_pending x)).
Proof.
  induction q as [|i r IH]; intros p g [k s ks].
  - destruct p as [|a p]; cbn; (split; [reflexivity|]); (split; [tauto|]); intros x y E1 E2; injection E1 as <-; injection E2 as <-; cbn;
      split; intros; congruence.
  - destruct p as [|a p]; cbn [update at_place n_kids in_tree n_kind].
    + split; [reflexivity|]. split; [tauto|]. intros x y E1 E2. rewrite E1 in E2. injection E2 as <-. split; [discriminate|reflexivity].
    + rewrite at_index_nth. destruct (Nat.eqb_spec a i) as [-> | Na]; destruct (nth_error ks i) as [c|]; cbn [option_map].
      * destruct (IH p g c) as (A & B & C). split; [exact A|]. split; [tauto|]. intros x y E1 E2. destruct (C x y E1 E2) as [C1 C2].
        split; [intros X; injection X; exact C1|]. intros X. apply C2. congruence.
      * split; [reflexivity|]. split; [tauto|]. discriminate.
      * split; [reflexivity|]. split; [tauto|]. intros x y E1 E2. rewrite E1 in E2. injection E2 as <-. split; [congruence|reflexivity].
      * split; [reflexivity|]. split; [tauto|]. discriminate.
Qed.

Lemma store_twice : forall g k p, store g k (store g k p) = store g k p.
Proof. intros g k p. unfold store. destruct (stores k); [destruct g|]; reflexivity. Qed.

Lemma some_of : forall A B (f : A -> B) o x, option_map f o = Some x -> exists y, o = Some y /\ f y = x.
Proof. intros A B f [y|] x E; [|discriminate E]. injection E as <-. eauto. Qed.

Lemma updates_at : forall g hs n q,
  let n' := fold_left (fun n p => update p (g p) n) hs n in
  option_map n_kind (at_place n' q) = option_map n_kind (at_place n q) /\
  (in_tree n q <-> in_tree n' q) /\
  (forall x y, at_place n q = Some x -> at_place n' q = Some y ->
     (In q hs -> n_pending y = store (g q) (n_kind x) (n_pending x)) /\ (~ In q hs -> n_pending y = n_pending x)).
Proof.
  intros g. induction hs as [|p r IH]; intros n q; cbn zeta.
  - cbn. split; [reflexivity|]. split; [tauto|]. intros x y E1 E2. rewrite E1 in E2. injection E2 as <-. tauto.
  - cbn [fold_left]. destruct (update_at q p (g p) n) as (A & B & C). destruct (IH (update p (g p) n) q) as (A' & B' & C').
    split; [congruence|]. split; [tauto|]. intros x y E1 E2.
    rewrite E1 in A. destruct (some_of _ _ _ _ _ A) as (z & Ez & Kz).
    destruct (C x z E1 Ez) as [C1 C2]. destruct (C' z y Ez E2) as [D1 D2].
    destruct (list_eq_dec Nat.eq_dec p q) as [-> | Np].
    + specialize (C1 eq_refl). split; [intros _|intros X; destruct X; left; reflexivity].
      destruct (in_dec (list_eq_dec Nat.eq_dec) q r) as [I | I].
      * rewrite (D1 I), Kz, C1. apply store_twice.
      * rewrite (D2 I). exact C1.
    + specialize (C2 Np). split.
      * intros [X | I]; [contradiction|]. rewrite (D1 I), Kz, C2. reflexivity.
      * intros X. rewrite D2, C2; [reflexivity|]. intros I. apply X. right. exact I.
Qed.

Lemma active_stores : forall k, active ut k -> stores k = true.
Proof.
  intros k [H | [(p & a & ->) _]]; [|reflexivity]. cbn in H. repeat destruct H as [<- | H]; try reflexivity; destruct H.
Qed.

(** *** A step *)
Lemma step_ok : forall e n, settled ut n ->
  answers ut n e (fst (step ut e n)) /\ settled ut (snd (step ut e n)) /\
  (forall q, option_map n_kind (at_place (snd (step ut e n)) q) = option_map n_kind (at_place n q)) /\
  (forall q, in_tree n q <-> in_tree (snd (step ut e n)) q) /\
  (forall q x y, at_place n q = Some x -> at_place (snd (step ut e n)) q = Some y -> ~ active ut (n_kind x) ->
     (In q (handed e) -> n_pending y = store (given e q) (n_kind x) (n_pending x)) /\ (~ In q (handed e) -> n_pending y = n_pending x)).
Proof.
  intros e n S0. unfold step.
  pose proof (updates_at (given e) (handed e) n) as U. cbn zeta in U.
  set (m := fold_left (fun n p => update p (given e p) n) (handed e) n) in *. clearbody m.
  split; [|split; [|split; [|split]]].
  - exists (listed (height m) m). split; [apply listed_sorted|]. split; [|apply listed_snd].
    intros q a. rewrite (listed_in q _ m a (le_n _)). destruct (U q) as (A & B & C). split.
    + intros (x & X1 & X2 & X3 & X4). rewrite X1 in A. symmetry in A. destruct (some_of _ _ _ _ _ A) as (z & Ez & Kz).
      exists z. split; [exact Ez|]. split; [tauto|]. rewrite Kz. split; [exact X3|].
      destruct (C z x Ez X1) as [C1 C2]. assert (Pz : n_pending z = None) by (apply (S0 q z Ez); [tauto|rewrite Kz; exact X3]).
      destruct (in_dec (list_eq_dec Nat.eq_dec) q (handed e)) as [I | I].
      * split; [exact I|]. rewrite (C1 I) in X4. unfold store in X4. rewrite Kz, (active_stores _ X3) in X4.
        destruct (given e q); [exact X4|congruence].
      * rewrite (C2 I) in X4. congruence.
    + intros (z & Z1 & Z2 & Z3 & Z4 & Z5). rewrite Z1 in A. destruct (some_of _ _ _ _ _ A) as (x & Ex & Kx).
      exists x. split; [exact Ex|]. split; [tauto|]. rewrite Kx. split; [exact Z3|].
      destruct (C z x Z1 Ex) as [C1 _]. rewrite (C1 Z4). unfold store. rewrite (active_stores _ Z3), Z5. reflexivity.
  - intros q y Y1 Y2 Y3. destruct (collect_at q (height m) m (le_n _)) as (A & B & C).
    rewrite Y1 in A. symmetry in A. destruct (some_of _ _ _ _ _ A) as (x & Ex & Kx).
    apply (C x y Ex Y1); [tauto|]. rewrite Kx. exact Y3.
  - intros q. destruct (collect_at q (height m) m (le_n _)) as (A & _). destruct (U q) as (A' & _). congruence.
  - intros q. destruct (collect_at q (height m) m (le_n _)) as (_ & B & _). destruct (U q) as (_ & B' & _). tauto.
  - intros q x y E1 E2 Na. destruct (collect_at q (height m) m (le_n _)) as (A & B & C). destruct (U q) as (A' & _ & C').
    rewrite E1 in A'. destruct (some_of _ _ _ _ _ A') as (z & Ez & Kz). destruct (C z y Ez E2) as [_ C2]. destruct (C' x z E1 Ez) as [D1 D2].
    rewrite <- Kz in Na. specialize (C2 Na). rewrite C2. tauto.
Qed.

Lemma step_settles : forall e n, settled ut (snd (step ut e n)).
Proof.
  intros e n. unfold step. set (m := fold_left (fun n p => update p (given e p) n) (handed e) n). clearbody m.
  intros q y Y1 Y2 Y3. destruct (collect_at q (height m) m (le_n _)) as (A & B & C).
  rewrite Y1 in A. symmetry in A. destruct (some_of _ _ _ _ _ A) as (x & Ex & Kx).
  apply (C x y Ex Y1); [tauto|]. rewrite Kx. exact Y3.
Qed.

Lemma answers_alike : forall n n' e out,
  (forall q, option_map n_kind (at_place n' q) = option_map n_kind (at_place n q)) -> (forall q, in_tree n q <-> in_tree n' q) ->
  answers ut n' e out -> answers ut n e out.
Proof.
  intros n n' e out K T (l & L1 & L2 & L3). exists l. split; [exact L1|]. split; [|exact L3].
  intros q a. rewrite L2. specialize (K q). specialize (T q). split; intros (x & X1 & X2 & X3 & X4).
  - rewrite X1 in K. symmetry in K. destruct (some_of _ _ _ _ _ K) as (z & Ez & Kz). exists z. rewrite Kz. tauto.
  - rewrite X1 in K. destruct (some_of _ _ _ _ _ K) as (z & Ez & Kz). exists z. rewrite Kz. tauto.
Qed.

Lemma run_ok : forall es n, settled ut n -> Forall2 (fun e out => answers ut n e out) es (run ut es n).
Proof.
  induction es as [|e r IH]; intros n S0; cbn [run]; constructor.
  - apply (step_ok e n S0).
  - destruct (step_ok e n S0) as (_ & S1 & K & T & _). specialize (IH _ S1).
    set (m := snd (step ut e n)) in *. clearbody m. induction IH as [|e' out r' outs H _ IH]; constructor; [|exact IH].
    apply (answers_alike n m); assumption.
Qed.
End User.
