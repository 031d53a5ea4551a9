(** C09-C14: segments and strips.

    [G] is the type of grapheme clusters and [gw] their display width; [St] are
    styles and [Mt] metadata.  All theorems hold for every choice of these. *)
From Coq Require Import List Arith Lia.
From Verif Require Import Strip_Model Strip_Spec Strip_Proofs.
Import ListNotations.

(** C09. Nothing is lost: texts concatenate, style and metadata are kept. *)
Theorem C09_split_lossless : forall (G St Mt : Type) (gw : G -> nat) (s : @segment G St Mt) cut,
  let '(l, r) := split_at gw s cut in
  sg_text l ++ sg_text r = sg_text s /\
  sg_style l = sg_style s /\ sg_style r = sg_style s /\
  sg_meta l = sg_meta s /\ sg_meta r = sg_meta s.
Proof. intros. apply split_lossless. Qed.
Print Assumptions C09_split_lossless.

(** C09. The cached widths of both halves are right. *)
Theorem C09_split_lengths : forall (G St Mt : Type) (gw : G -> nat) (s : @segment G St Mt) cut,
  seg_ok gw s ->
  sg_len (fst (split_at gw s cut)) = text_width gw (sg_text (fst (split_at gw s cut))) /\
  sg_len (snd (split_at gw s cut)) = text_width gw (sg_text (snd (split_at gw s cut))).
Proof. intros G St Mt gw s cut H. exact (split_ok gw s cut H). Qed.
Print Assumptions C09_split_lengths.

(** C09. The left half is the shortest prefix at least [cut] cells wide: it is
    exactly [cut] wide, or its last cluster straddles the cut. *)
Theorem C09_split_left_minimal : forall (G St Mt : Type) (gw : G -> nat) (s : @segment G St Mt) cut,
  seg_ok gw s -> 0 < cut < sg_len s ->
  let l := sg_text (fst (split_at gw s cut)) in
  cut <= text_width gw l /\ (forall l1 g l2, l = l1 ++ g :: l2 -> text_width gw l1 < cut).
Proof. intros G St Mt gw s cut H. exact (split_minimal gw s cut H). Qed.
Print Assumptions C09_split_left_minimal.

(** C09. With one-cell clusters the cut is exact. *)
Theorem C09_split_exact_narrow : forall (G St Mt : Type) (gw : G -> nat) (s : @segment G St Mt) cut,
  seg_ok gw s -> Forall (fun g => gw g = 1) (sg_text s) ->
  sg_text (fst (split_at gw s cut)) = firstn cut (sg_text s) /\
  sg_text (snd (split_at gw s cut)) = skipn cut (sg_text s).
Proof. exact @split_narrow. Qed.
Print Assumptions C09_split_exact_narrow.

(** C09. Cuts at or outside the ends. *)
Theorem C09_split_ends : forall (G St Mt : Type) (gw : G -> nat) (s : @segment G St Mt),
  (sg_text (fst (split_at gw s 0)) = [] /\ snd (split_at gw s 0) = s) /\
  (forall cut, 0 < cut -> sg_len s <= cut ->
     fst (split_at gw s cut) = s /\ sg_text (snd (split_at gw s cut)) = []).
Proof.
  intros G St Mt gw s. exact (conj (split_trivial_zero gw s) (split_trivial_all gw s)).
Qed.
Print Assumptions C09_split_ends.

(** C10. Between any two cluster boundaries crop returns exactly the clusters
    lying between them, with their styles and metadata. *)
Theorem C10_crop_between_boundaries :
  forall (G St Mt : Type) (gw : G -> nat) (s : @strip G St Mt) A B C,
  strip_ok gw s -> all_visible gw (cells s) -> cells s = A ++ B ++ C ->
  cells (crop gw s (cells_width gw A) (cells_width gw (A ++ B))) = B.
Proof. intros G St Mt gw s A B C. apply crop_exact. Qed.
Print Assumptions C10_crop_between_boundaries.

(** C10. With one-cell clusters crop is the slice of columns, for any bounds. *)
Theorem C10_crop_narrow : forall (G St Mt : Type) (gw : G -> nat) (s : @strip G St Mt) a b,
  strip_ok gw s -> all_narrow gw (cells s) ->
  cells (crop gw s a b) = firstn (b - a) (skipn a (cells s)).
Proof. intros G St Mt gw s a b. apply crop_narrow. Qed.
Print Assumptions C10_crop_narrow.

(** C10. The cached length of the result is its true width. *)
Theorem C10_crop_length_consistent : forall (G St Mt : Type) (gw : G -> nat) (s : @strip G St Mt) a b,
  strip_ok gw s -> strip_ok gw (crop gw s a b).
Proof. intros G St Mt gw s a b. apply crop_strip_ok. Qed.
Print Assumptions C10_crop_length_consistent.

(** C11. If every cut is a cluster boundary, the pieces put together are the
    whole strip, whatever the order or repetition of the cuts. *)
Theorem C11_divide_partition : forall (G St Mt : Type) (gw : G -> nat) (s : @strip G St Mt) cuts,
  strip_ok gw s -> all_visible gw (cells s) ->
  (forall c, In c cuts -> c <= st_len s -> boundary gw (cells s) c) ->
  flat_map cells (divide gw s cuts) = cells s.
Proof. intros G St Mt gw s cuts. apply divide_lossless. Qed.
Print Assumptions C11_divide_partition.

(** C11. With increasing interior cuts there is one piece per interval, each
    exactly as wide as the interval. *)
Theorem C11_divide_widths : forall (G St Mt : Type) (gw : G -> nat) (s : @strip G St Mt) cuts,
  strip_ok gw s -> all_visible gw (cells s) -> cuts <> [] ->
  (forall c, In c cuts -> c < st_len s /\ boundary gw (cells s) c) ->
  increasing 0 cuts ->
  map (fun p => st_len p) (divide gw s cuts) = diffs 0 (cuts ++ [st_len s]).
Proof. intros G St Mt gw s cuts. apply divide_lengths. Qed.
Print Assumptions C11_divide_widths.

(** C12. simplify does not change what is shown nor the length. *)
Theorem C12_simplify_invisible :
  forall (G St Mt : Type) (gw : G -> nat) style_eqb (meta_empty : Mt) (s : @strip G St Mt),
  (forall a b, style_eqb a b = true -> a = b) ->
  visible (cells (simplify gw style_eqb meta_empty s)) = visible (cells s) /\
  (strip_ok gw s ->
     st_len (simplify gw style_eqb meta_empty s) = st_len s /\
     strip_ok gw (simplify gw style_eqb meta_empty s)).
Proof.
  intros G St Mt gw eqb me s H.
  exact (conj (simplify_visible gw eqb me H s)
           (fun K => conj (simplify_len gw eqb me H s K) (simplify_ok gw eqb me s K))).
Qed.
Print Assumptions C12_simplify_invisible.

(** C12. simplify merges: neighbouring segments of the result differ in style. *)
Theorem C12_simplify_merges :
  forall (G St Mt : Type) (gw : G -> nat) style_eqb (meta_empty : Mt) (s : @strip G St Mt),
  Forall (fun x => sg_text x <> []) (st_segs s) ->
  styles_alternate style_eqb (st_segs (simplify gw style_eqb meta_empty s)).
Proof. intros. now apply simplify_alternates. Qed.
Print Assumptions C12_simplify_merges.

(** C12. join concatenates and its length is the true width. *)
Theorem C12_join : forall (G St Mt : Type) (gw : G -> nat) (l : list (@strip G St Mt)),
  cells (join l) = flat_map cells l /\
  (Forall (strip_ok gw) l -> strip_ok gw (join l)).
Proof. intros G St Mt gw l. exact (conj (join_cells l) (join_ok gw l)). Qed.
Print Assumptions C12_join.

(** C13. adjust_cell_length: a shorter strip is padded on the right. *)
Theorem C13_adjust_pads :
  forall (G St Mt : Type) (gw : G -> nat) (me : Mt) (space : G) (s : @strip G St Mt) n pad,
  gw space = 1 -> strip_ok gw s -> st_len s <= n ->
  cells (adjust_cell_length gw me space s n pad)
    = cells s ++ repeat (space, pad, me) (n - st_len s) /\
  st_len (adjust_cell_length gw me space s n pad) = n.
Proof. exact @adjust_pads. Qed.
Print Assumptions C13_adjust_pads.

(** C13. adjust_cell_length: a longer strip is cut to a prefix of the asked width
    (if no wide cluster straddles the cut). *)
Theorem C13_adjust_cuts :
  forall (G St Mt : Type) (gw : G -> nat) (me : Mt) (space : G) (s : @strip G St Mt) n pad,
  gw space = 1 -> strip_ok gw s -> all_visible gw (cells s) ->
  n < st_len s -> boundary gw (cells s) n ->
  (exists rest, cells s = cells (adjust_cell_length gw me space s n pad) ++ rest) /\
  st_len (adjust_cell_length gw me space s n pad) = n.
Proof. exact @adjust_cuts. Qed.
Print Assumptions C13_adjust_cuts.

(** C13. text_align of a shorter line: padding, the whole line, padding. *)
Theorem C13_text_align_pads :
  forall (G St Mt : Type) (gw : G -> nat) (me : Mt) (space : G) (s : @strip G St Mt) a n pad,
  gw space = 1 -> strip_ok gw s -> st_len s < n ->
  let gap := n - st_len s in
  cells (text_align gw me space s a n pad)
  = repeat (space, pad, me) (left_pad a gap) ++ cells s
    ++ repeat (space, pad, me) (gap - left_pad a gap).
Proof. intros G St Mt gw me space s a n pad H. apply (text_align_cells gw me space H). Qed.
Print Assumptions C13_text_align_pads.

(** C13. text_align gives exactly the asked width. *)
Theorem C13_text_align_width :
  forall (G St Mt : Type) (gw : G -> nat) (me : Mt) (space : G) (s : @strip G St Mt) a n pad,
  gw space = 1 -> strip_ok gw s -> all_visible gw (cells s) ->
  (n < st_len s -> boundary gw (cells s) n) ->
  st_len (text_align gw me space s a n pad) = n /\
  strip_ok gw (text_align gw me space s a n pad).
Proof. exact @text_align_width. Qed.
Print Assumptions C13_text_align_width.

(** C14. Justifying a line with at least one space: the i-th space is widened by
    an even share of the missing cells, nothing else changes, and the result is
    exactly [w] cells wide. *)
Theorem C14_justify : forall (G St Mt : Type) (gw : G -> nat) (me : Mt) (space : G) is_space
    (s : @strip G St Mt) w pad,
  gw space = 1 -> (forall g, is_space g = true <-> g = space) ->
  strip_ok gw s -> st_len s < w ->
  let gaps := spaces is_space (cells s) in 0 < gaps ->
  cells (justify gw me space is_space s w pad)
    = stretch is_space (even_share gaps (w - st_len s)) 0 (cells s) /\
  strip_ok gw (justify gw me space is_space s w pad) /\
  st_len (justify gw me space is_space s w pad) = w.
Proof.
  intros G St Mt gw me space is_space s w pad H1 H2.
  exact (justify_cells gw me space H1 is_space H2 s w pad).
Qed.
Print Assumptions C14_justify.

(** C14. Two gaps never differ by more than one cell, and the words (the
    non-space clusters with their styles) are unchanged. *)
Theorem C14_gaps_even_words_kept : forall (G St Mt : Type) (gw : G -> nat) (me : Mt) (space : G) is_space
    (s : @strip G St Mt) w pad,
  gw space = 1 -> (forall g, is_space g = true <-> g = space) ->
  strip_ok gw s -> st_len s < w -> 0 < spaces is_space (cells s) ->
  (forall gaps extra i j, even_share gaps extra i <= even_share gaps extra j + 1) /\
  filter (fun c => negb (is_space (fst (fst c)))) (cells (justify gw me space is_space s w pad))
  = filter (fun c => negb (is_space (fst (fst c)))) (cells s).
Proof. exact @justify_words. Qed.
Print Assumptions C14_gaps_even_words_kept.

(** C14. Lines without a space are left-aligned; lines at least as long as the
    width are cropped. *)
Theorem C14_justify_otherwise : forall (G St Mt : Type) (gw : G -> nat) (me : Mt) (space : G) is_space
    (s : @strip G St Mt) w pad,
  gw space = 1 -> (forall g, is_space g = true <-> g = space) ->
  (st_len s < w -> spaces is_space (cells s) = 0 ->
     justify gw me space is_space s w pad = text_align gw me space s HLeft w pad) /\
  (w <= st_len s -> justify gw me space is_space s w pad = crop gw s 0 w).
Proof.
  intros G St Mt gw me space is_space s w pad H1 H2.
  exact (conj (justify_no_gap gw me space H1 is_space H2 s w pad)
              (justify_long gw me space H1 is_space H2 s w pad)).
Qed.
Print Assumptions C14_justify_otherwise.

(** *** Concrete cases *)

Inductive glyph := GA | GB | GC | GSp | GWide.
Definition ggw (g : glyph) : nat := match g with GWide => 2 | _ => 1 end.
Definition gsp (g : glyph) : bool := match g with GSp => true | _ => false end.
Definition oeqb (a b : option nat) : bool :=
  match a, b with Some x, Some y => x =? y | None, None => true | _, _ => false end.
Notation seg t s m := (@Segment glyph nat nat t (text_width ggw t) s m).

Definition line1 : strip := from_segments [seg [GA; GB] (Some 1) 7; seg [GSp; GC; GSp] (Some 2) 8; seg [GA] None 9].

Example line1_ok : strip_ok ggw line1 /\ all_narrow ggw (cells line1) /\ all_visible ggw (cells line1) /\
  Forall (fun x => sg_text x <> []) (st_segs line1).
Proof. repeat split; repeat constructor; discriminate. Qed.

Example C09_witness :
  let x := seg [GA; GWide; GB] (Some 1) 7 in
  seg_ok ggw x /\ 0 < 2 < sg_len x /\ sg_text (fst (split_at ggw x 2)) = [GA; GWide].
Proof. cbn. repeat split; lia. Qed.

Example C10_witness :
  cells (crop ggw line1 1 4) = [(GB, Some 1, 7); (GSp, Some 2, 8); (GC, Some 2, 8)].
Proof. reflexivity. Qed.

Example C11_witness :
  increasing 0 [2; 4] /\
  map (fun p => st_len p) (divide ggw line1 [2; 4]) = [2; 2; 2] /\
  forall c, In c [2; 4] -> c < st_len line1 /\ boundary ggw (cells line1) c.
Proof.
  split; [cbn; lia|]. split; [reflexivity|]. intros c [<-|[<-|[]]]; (split; [cbn; lia|]).
  - exists 2. reflexivity.
  - exists 4. reflexivity.
Qed.

Example C12_witness :
  let s := from_segments [seg [GA] (Some 1) 7; seg [GB] (Some 1) 8; seg [GC] (Some 2) 9] in
  map (fun x => (sg_text x, sg_style x)) (st_segs (simplify ggw oeqb 0 s))
  = [([GA; GB], Some 1); ([GC], Some 2)].
Proof. reflexivity. Qed.

Example C13_witness :
  st_len (adjust_cell_length ggw 0 GSp line1 9 None) = 9 /\
  st_len (adjust_cell_length ggw 0 GSp line1 4 None) = 4 /\
  boundary ggw (cells line1) 4 /\
  map (fun c => fst (fst c)) (cells (text_align ggw 0 GSp line1 HCenter 9 None))
    = [GSp; GA; GB; GSp; GC; GSp; GA; GSp; GSp].
Proof. repeat split. exists 4. reflexivity. Qed.

Example C14_witness :
  spaces gsp (cells line1) = 2 /\
  map (fun c => fst (fst c)) (cells (justify ggw 0 GSp gsp line1 9 None))
    = [GA; GB; GSp; GSp; GC; GSp; GSp; GSp; GA] /\
  (forall g, gsp g = true <-> g = GSp).
Proof. repeat split; intros; subst; try reflexivity. destruct g; try discriminate; reflexivity. Qed.

(** *** What does not hold *)

(** C10 refuted for a wide cluster straddling the end: the result of crop(0,1)
    is two cells wide (segment.rs:265-275 keeps the whole cluster). *)
Theorem C10_crop_wide_refuted : exists (s : @strip glyph nat nat), strip_ok ggw s /\
  all_visible ggw (cells s) /\ st_len (crop ggw s 0 1) = 2.
Proof. exists (from_segments [seg [GWide; GA] None 0]). repeat split; repeat constructor. Qed.
Print Assumptions C10_crop_wide_refuted.

(** C11 refuted for a wide cluster straddling a cut: the pieces are wider
    together than the strip, a cluster is shown twice. *)
Theorem C11_divide_wide_refuted : exists (s : @strip glyph nat nat) cuts, strip_ok ggw s /\
  all_visible ggw (cells s) /\ increasing 0 cuts /\ (forall c, In c cuts -> c < st_len s) /\
  st_len s = 5 /\ map (fun p => st_len p) (divide ggw s cuts) = [2; 2; 2].
Proof.
  exists (from_segments [seg [GWide; GA; GB; GC] None 0]), [1; 3].
  split; [repeat constructor|]. split; [repeat constructor|]. split; [cbn; lia|].
  split; [|split; reflexivity]. intros c [<-|[<-|[]]]; cbn; lia.
Qed.
Print Assumptions C11_divide_wide_refuted.

(** C12: metadata does not survive simplify (strip.rs:291-304 rebuilds the
    segments with empty metadata), even when nothing is merged. *)
Theorem C12_simplify_meta_refuted : exists (s : @strip glyph nat nat),
  Forall (fun x => sg_meta x <> 0) (st_segs s) /\ styles_alternate oeqb (st_segs s) /\
  Forall (fun x => sg_meta x = 0) (st_segs (simplify ggw oeqb 0 s)) /\ st_segs s <> [].
Proof.
  exists (from_segments [seg [GA] (Some 1) 7; seg [GB] (Some 2) 8]).
  repeat split; repeat constructor; discriminate.
Qed.
Print Assumptions C12_simplify_meta_refuted.

(** C14: spaces are counted one by one, so a double space is widened twice and
    gaps between words can differ by more than one cell. *)
Theorem C14_double_space_refuted : exists (s : @strip glyph nat nat) w, strip_ok ggw s /\ st_len s < w /\
  map (fun c => fst (fst c)) (cells s) = [GA; GSp; GSp; GB; GSp; GC] /\
  map (fun c => fst (fst c)) (cells (justify ggw 0 GSp gsp s w None))
    = [GA; GSp; GSp; GSp; GSp; GSp; GSp; GB; GSp; GSp; GSp; GC].
Proof.
  exists (from_segments [seg [GA; GSp; GSp; GB; GSp; GC] None 0]), 12.
  repeat split; repeat constructor.
Qed.
Print Assumptions C14_double_space_refuted.
