(** Proofs about styles, repainted lines and border boxes. *)
From Coq Require Import ZArith QArith List Bool Lia Arith.
From Verif Require Import Text_Model Strip_Model Strip_Spec Strip_Proofs Row_Model Colour_Model Colour_Spec Paint_Model Paint_Spec.
Import ListNotations.

Section Lines.
Context {G Mt : Type}.
Variable gw : G -> nat.
Notation strip := (@strip G style Mt).
Notation segment := (@segment G style Mt).

Lemma ok_len : forall segs, Forall (seg_ok gw) segs -> fold_right (fun (s : segment) n => sg_len s + n)%nat 0%nat segs = cells_width gw (flat_map seg_cells segs).
Proof.
  induction 1 as [|x l X L IH]; cbn [fold_right flat_map]; [reflexivity|]. rewrite CW_app, CW_seg, IH. unfold seg_ok in X. rewrite X. reflexivity.
Qed.

Lemma ok_from : forall segs, Forall (seg_ok gw) segs -> strip_ok gw (@from_segments G style Mt segs).
Proof. intros segs H. split; [exact H|]. unfold cells. cbn [st_segs st_len from_segments]. apply ok_len; auto. Qed.

(** Changing the style of each segment. *)
Lemma repainted_map : forall (R : option style -> option style -> Prop) (f : segment -> segment) (s : strip),
  (forall x, sg_text (f x) = sg_text x /\ sg_meta (f x) = sg_meta x /\ (sg_text x <> [] -> R (sg_style x) (sg_style (f x)))) ->
  (forall x, seg_ok gw x -> seg_ok gw (f x)) ->
  repainted gw R s (from_segments (map f (st_segs s))).
Proof.
  intros R f s F K. split.
  - unfold cells. cbn [st_segs from_segments]. induction (st_segs s) as [|x l IH]; cbn [map flat_map]; [constructor|]. apply Forall2_app; auto.
    destruct (F x) as (T & M & Rx). unfold seg_cells. rewrite T, M.
    assert (RR : forall t, (t <> [] -> R (sg_style x) (sg_style (f x))) -> Forall2 (fun x0 y : G * option style * Mt => fst (fst y) = fst (fst x0) /\ snd y = snd x0 /\ R (snd (fst x0)) (snd (fst y)))
      (map (fun g => (g, sg_style x, sg_meta x)) t) (map (fun g => (g, sg_style (f x), sg_meta x)) t)).
    { induction t as [|g t IHt]; intros H; cbn [map]; constructor; [|apply IHt; intros _; apply H; discriminate]. cbn [fst snd]. repeat split; auto. apply H. discriminate. }
    apply RR. exact Rx.
  - intros [O L]. assert (O' : Forall (seg_ok gw) (map f (st_segs s))) by (rewrite Forall_map; eapply Forall_impl; [|exact O]; auto). split; [apply ok_from; auto|]. cbn [from_segments st_len]. rewrite L. rewrite ok_len; auto. unfold cells.
    clear - F. induction (st_segs s) as [|x l IH]; cbn [map flat_map]; auto. rewrite !CW_app, !CW_seg, IH. destruct (F x) as (-> & _). reflexivity.
Qed.
Lemma repainted_same : forall (R : option style -> option style -> Prop) (s : strip), (forall u, R u u) -> repainted gw R s s.
Proof. intros R s H. split; [|auto]. induction (cells s); constructor; auto. Qed.
End Lines.

(** ** The border box cache *)
Section Cache.
Context {Mt : Type}.
Variable gw : Z -> nat.
Variable me : Mt.

Lemma rgb_eqb_eq : forall a b, rgb_eqb a b = true <-> a = b.
Proof.
  intros [[[r g] b]|] [[[r' g'] b']|]; cbn [rgb_eqb]; split; intros H; try discriminate; auto.
  - apply andb_true_iff in H. destruct H as [H H3]. apply andb_true_iff in H. destruct H as [H1 H2]. apply Z.eqb_eq in H1, H2, H3. subst. reflexivity.
  - injection H as -> -> ->. rewrite !Z.eqb_refl. reflexivity.
Qed.
Lemma kind_code_inj : forall a b, kind_code a = kind_code b -> a = b.
Proof. intros [] []; cbn; intros H; congruence. Qed.
Lemma key_eqb_eq : forall a b, key_eqb a b = true <-> a = b.
Proof.
  intros [[k [f g]] [h i]] [[k' [f' g']] [h' i']]. unfold key_eqb. rewrite !andb_true_iff, Z.eqb_eq, !rgb_eqb_eq. split.
  - intros [[[[K ->] ->] ->] ->]. apply kind_code_inj in K. subst. reflexivity.
  - intros E. injection E as -> -> -> -> ->. auto.
Qed.
Lemma key_eqb_refl : forall a, key_eqb a a = true. Proof. intros. apply key_eqb_eq. reflexivity. Qed.

Lemma alike_key : forall a b, alike a b <-> request_key a = request_key b.
Proof.
  intros [[k i] o] [[k' i'] o']. cbn [alike request_key]. unfold key_of, rgb_key. split.
  - intros [-> H]. pose proof (H Fore) as [A B]. pose proof (H Back) as [C D]. cbn [colour] in A, B, C, D. unfold rgb in *.
    unfold option_map. rewrite A, B, C, D. reflexivity.
  - intros E. injection E as E1 E2 E3 E4 E5. split; auto. intros []; cbn [colour]; unfold rgb; unfold option_map in *; auto.
Qed.

(** Every entry of the cache was made for a request with that key. *)
Definition from_requests (P : request -> Prop) (m : cache_map) : Prop :=
  forall k b, In (k, b) m -> exists r, P r /\ request_key r = k /\ b = generate gw me r.
Lemma lookup_in : forall (m : cache_map) k b, lookup (Mt := Mt) m k = Some b -> In (k, b) m.
Proof.
  intros m k b H. unfold lookup in H. destruct (find _ m) as [[k' b']|] eqn:F; [|discriminate]. cbn in H. injection H as ->.
  apply find_some in F. destruct F as [I E]. cbn in E. apply key_eqb_eq in E. subst. exact I.
Qed.
Lemma run_from : forall l m P, from_requests P m -> from_requests (fun r => P r \/ In (BInsert r) l) (run_cache gw me m l).
Proof.
  induction l as [|s l IH]; intros m P H; cbn [run_cache fold_left].
  - intros k b I. destruct (H k b I) as (r & R1 & R2). eauto.
  - assert (H' : from_requests (fun r => P r \/ BInsert r = s) (step_cache gw me m s)).
    { intros k b I. destruct s as [r|r|]; cbn [step_cache] in I; [..|destruct I].
      - destruct (H k b I) as (r0 & R1 & R2). eauto.
      - destruct I as [E|I]; [injection E as <- <-; eauto|]. destruct (H k b I) as (r0 & R1 & R2). eauto. }
    specialize (IH _ _ H'). intros k b I. destruct (IH k b I) as (r & [[R1|R1]|R1] & R2); exists r; split; auto; [right; left; auto|right; right; auto].
Qed.
Lemma answer_from : forall l r, exists r', (r' = r \/ In (BInsert r') l) /\ alike r' r /\ answer gw me (run_cache gw me [] l) r = generate gw me r'.
Proof.
  intros l r. unfold answer. destruct (lookup _ (request_key r)) as [b|] eqn:E.
  - apply lookup_in in E. destruct (run_from l [] (fun _ => False) ltac:(intros k b' []) _ _ E) as (r' & [[]|I] & K & ->). exists r'. split; auto. split; auto. apply alike_key. exact K.
  - exists r. split; auto. split; auto. apply alike_key. reflexivity.
Qed.
Lemma zone_rgb : forall z i o i' o' l, (forall l, rgb (colour l (Some i)) = rgb (colour l (Some i'))) -> (forall l, rgb (colour l (Some o)) = rgb (colour l (Some o'))) ->
  rgb (colour l (Some (zone_style z i o))) = rgb (colour l (Some (zone_style z i' o'))).
Proof.
  intros z i o i' o' l I O. unfold zone_style. destruct (z =? 0)%Z; [apply I|]. destruct (z =? 1)%Z; [apply O|]. destruct (z =? 2)%Z; [destruct l; cbn [colour fg bg]; [exact (I Fore)|exact (O Back)]|].
  destruct (z =? 3)%Z; [destruct l; cbn [colour fg bg]; [exact (O Fore)|exact (I Back)]|apply I].
Qed.
Lemma look_glyph : forall g s s', (forall l, rgb (colour l (Some s)) = rgb (colour l (Some s'))) -> look (glyph_seg gw me g s) = look (glyph_seg gw me g s').
Proof. intros g s s' H. unfold look, glyph_seg, segment_new. cbn [sg_text sg_len sg_style sg_meta]. rewrite (H Fore), (H Back). reflexivity. Qed.
Lemma look_alike : forall r r', alike r r' -> map look (pieces (generate gw me r)) = map look (pieces (generate gw me r')).
Proof.
  intros [[k i] o] [[k' i'] o'] [-> H]. cbn [generate]. unfold generate_box. destruct (border_chars k') as [[[[a b] c] [[d e] f]] [[g h] j]]. destruct (border_locations k') as [[[[a' b'] c'] [[d' e'] f']] [[g' h'] j']].
  assert (L : forall z g0, look (glyph_seg gw me g0 (zone_style z i o)) = look (glyph_seg gw me g0 (zone_style z i' o'))) by (intros z g0; apply look_glyph; intros l; apply zone_rgb; intros l'; apply H).
  cbn [build_row pieces map]. rewrite !L. reflexivity.
Qed.

(** [get_boxes] of one thread: the first request with a key decides. *)
Definition keyb (a b : request) : bool := key_eqb (request_key a) (request_key b).
Lemma get_boxes_first : forall l m seen,
  (forall k, lookup m k = option_map (generate gw me) (find (fun r => key_eqb (request_key r) k) seen)) ->
  forall i r, nth_error l i = Some r ->
  exists r', find (fun r0 => keyb r0 r) (seen ++ firstn (S i) l) = Some r' /\ nth_error (get_boxes gw me m l) i = Some (generate gw me r').
Proof.
  induction l as [|q l IH]; intros m seen H i r E; [destruct i; discriminate|]. cbn [get_boxes]. unfold get_box. destruct (lookup m (request_key q)) as [b|] eqn:L.
  - pose proof (H (request_key q)) as Hq. rewrite L in Hq. destruct (find _ seen) as [r0|] eqn:F; [|discriminate]. cbn in Hq. injection Hq as ->.
    destruct i as [|i]; cbn [nth_error] in *.
    + injection E as ->. exists r0. split; auto. clear - F. unfold keyb. induction seen as [|x seen IHs]; [discriminate|]. cbn [find app] in *. destruct (key_eqb _ _); auto.
    + pose proof (IH m (seen ++ [q])) as IH'. match type of IH' with ?A -> _ => assert (X0 : A) end.
      { intros k. rewrite H. clear - F. assert (X : find (fun r1 => key_eqb (request_key r1) k) (seen ++ [q]) = match find (fun r1 => key_eqb (request_key r1) k) seen with Some y => Some y | None => if key_eqb (request_key q) k then Some q else None end).
        { induction seen as [|x s IHs]; [discriminate|]. cbn [find app] in *. destruct (key_eqb (request_key x) k) eqn:K; auto. destruct (key_eqb (request_key x) (request_key q)) eqn:K2.
          - assert (N : key_eqb (request_key q) k = false) by (apply key_eqb_eq in K2; rewrite <- K2; exact K). clear IHs. rewrite N. induction s as [|y s IHs]; cbn [find app]; [rewrite N; reflexivity|]. destruct (key_eqb (request_key y) k); auto.
          - apply IHs. exact F. }
        rewrite X. destruct (find (fun r1 => key_eqb (request_key r1) k) seen) eqn:F2; auto. destruct (key_eqb (request_key q) k) eqn:K; auto. apply key_eqb_eq in K. rewrite <- K in F2. rewrite F in F2. discriminate. }
      destruct (IH' X0 i r E) as (r' & R1 & R2). exists r'. split; auto. rewrite <- app_assoc in R1. exact R1.
  - pose proof (H (request_key q)) as Hq. rewrite L in Hq. destruct (find _ seen) as [r0|] eqn:F; [discriminate|].
    destruct i as [|i]; cbn [nth_error] in *.
    + injection E as ->. exists r. split; auto. clear - F. unfold keyb. induction seen as [|x seen IHs]; cbn [find app firstn] in *; [rewrite key_eqb_refl; reflexivity|]. destruct (key_eqb _ _); [discriminate|auto].
    + pose proof (IH (step_cache gw me m (BInsert q)) (seen ++ [q])) as IH'. match type of IH' with ?A -> _ => assert (X0 : A) end.
      { intros k. cbn [step_cache]. unfold lookup. cbn [find fst]. assert (X : find (fun r1 => key_eqb (request_key r1) k) (seen ++ [q]) = if key_eqb (request_key q) k then Some q else find (fun r1 => key_eqb (request_key r1) k) seen).
        { clear - F. induction seen as [|x s IHs]; cbn [find app] in *; [reflexivity|]. destruct (key_eqb (request_key x) (request_key q)) eqn:K2; [discriminate|]. rewrite (IHs F). destruct (key_eqb (request_key x) k) eqn:K; auto.
          destruct (key_eqb (request_key q) k) eqn:K3; auto. apply key_eqb_eq in K, K3. rewrite K, K3, key_eqb_refl in K2. discriminate. }
        rewrite X. destruct (key_eqb (request_key q) k); [reflexivity|]. apply H. }
      destruct (IH' X0 i r E) as (r' & R1 & R2). exists r'. split; auto. rewrite <- app_assoc in R1. exact R1.
Qed.
End Cache.
