(** Model of the style part of crates/textual/src/segment.rs (Style,
    apply_style, set_style, apply_tint, apply_hatch), of the corresponding
    functions of crates/textual/src/strip.rs, and of the border boxes of
    crates/textual/src/border_box.rs, border_chars.rs and render_cache.rs.

    Text is as in Strip_Model; [rnd] is the rounding of f32 arithmetic as in
    Colour_Model.  apply_hatch and apply_text_opacity work on grapheme clusters
    where the code works on characters (equal unless a space or the hatch
    character is part of a longer cluster). *)
From Coq Require Import ZArith QArith List Bool.
From Verif Require Import Text_Model Strip_Model Row_Model Colour_Model.
Import ListNotations.

(** segment.rs:22-40 [Style] *)
Record style := Style { fg : option rgba; bg : option rgba; bold : bool; dim : bool; italic : bool; underline : bool; strike : bool; reverse : bool }.
Definition style_default : style := Style None None false false false false false false.
(** segment.rs:44-66 [with_fg], [with_bg], [with_colors] *)
Definition with_fg (c : rgba) : style := Style (Some c) None false false false false false false.
Definition with_bg (c : rgba) : style := Style None (Some c) false false false false false false.
Definition with_colors (c d : rgba) : style := Style (Some c) (Some d) false false false false false false.
(** segment.rs:69-78 [is_empty] *)
Definition is_none {A : Type} (o : option A) : bool := match o with None => true | Some _ => false end.
Definition style_is_empty (s : style) : bool :=
  is_none (fg s) && is_none (bg s) && negb (bold s) && negb (dim s) && negb (italic s) && negb (underline s) && negb (strike s) && negb (reverse s).
(** [a.or_else(|| b)] *)
Definition or_else {A : Type} (a b : option A) : option A := match a with Some _ => a | None => b end.
(** segment.rs:84-95 [apply]: [other] on top of [s] *)
Definition style_apply (s other : style) : style :=
  Style (or_else (fg other) (fg s)) (or_else (bg other) (bg s)) (bold s || bold other) (dim s || dim other) (italic s || italic other)
        (underline s || underline other) (strike s || strike other) (reverse s || reverse other).
Definition set_fg (s : style) (c : option rgba) : style := Style c (bg s) (bold s) (dim s) (italic s) (underline s) (strike s) (reverse s).

Section Paint.
Context {G Mt : Type}.
Variable gw : G -> nat.
Variable rnd : Q -> Q.
Variable meta_empty : Mt.
Variable space : G.
Variable is_space : G -> bool.
Notation segment := (@segment G style Mt).
Notation strip := (@strip G style Mt).

(** segment.rs:312-321 [set_style] *)
Definition set_style (s : segment) (st : option style) : segment := Segment (sg_text s) (sg_len s) st (sg_meta s).
(** segment.rs:298-310 and strip.rs:259-262 [apply_style], for this type of styles *)
Definition apply_style_seg : segment -> style -> segment := segment_apply_style style_apply.
Definition apply_style : strip -> style -> strip := strip_apply_style style_apply.

(** segment.rs:329-351 [apply_tint] *)
Definition tint_style (s : style) (t : rgba) : style :=
  Style (option_map (fun c => tint rnd c t) (fg s)) (option_map (fun c => tint rnd c t) (bg s)) (bold s) (dim s) (italic s) (underline s) (strike s) (reverse s).
Definition apply_tint_seg (s : segment) (t : rgba) : segment :=
  if Qeq_bool (c_a t) 0 then s else Segment (sg_text s) (sg_len s) (option_map (fun st => tint_style st t) (sg_style s)) (sg_meta s).
(** strip.rs:448-461 [apply_tint] *)
Definition apply_tint (s : strip) (t : rgba) : strip :=
  if Qeq_bool (c_a t) 0 then s else from_segments (map (fun x => apply_tint_seg x t) (st_segs s)).

(** segment.rs:357-407 [apply_hatch]; [hatch] is the hatch character as a
    cluster, [has_hatch g] says whether cluster [g] contains that character *)
Definition apply_hatch_seg (s : segment) (hatch : G) (has_hatch : G -> bool) (colour : rgba) (opacity : Q) : segment :=
  let new_text := map (fun g => if is_space g then hatch else g) (sg_text s) in
  if negb (existsb has_hatch new_text) then s
  else
    let colour := with_alpha colour (rnd (c_a colour * opacity)) in
    Segment new_text (sg_len s) (Some (match sg_style s with Some st => set_fg st (Some colour) | None => with_fg colour end)) (sg_meta s).
(** strip.rs:467-475 [apply_hatch] *)
Definition apply_hatch (s : strip) (hatch : G) (has_hatch : G -> bool) (colour : rgba) (opacity : Q) : strip :=
  from_segments (map (fun x => apply_hatch_seg x hatch has_hatch colour opacity) (st_segs s)).

(** strip.rs:125-163: one segment of [apply_text_opacity] *)
Definition opacity_seg (opacity : Q) (fallback_bg : option rgba) (x : segment) : segment :=
  let style := sg_style x in
  let bgc := or_else (match style with Some s => bg s | None => None end) fallback_bg in
  if Qle_bool opacity 0 then
    Segment (repeat space (sg_len x)) (sg_len x) (option_map (fun s => set_fg s None) style) (sg_meta x)
  else
    let fgc := or_else (match style with Some s => fg s | None => None end) (match bgc with Some _ => Some (rgba_of 255 255 255 1) | None => None end) in
    let adjusted := match fgc with
      | Some f =>
          let blended := match bgc with Some b => blend_toward rnd f b opacity | None => with_opacity rnd f opacity end in
          Some (set_fg (match style with Some s => s | None => style_default end) (Some blended))
      | None => style
      end in
    Segment (sg_text x) (text_width gw (sg_text x)) adjusted (sg_meta x).
(** strip.rs:119-167 [apply_text_opacity] *)
Definition apply_text_opacity (s : strip) (opacity : Q) (fallback_bg : option rgba) : strip :=
  if Qle_bool 1 opacity then s else from_segments (map (opacity_seg opacity fallback_bg) (st_segs s)).

(** border_box.rs:104-122, render_cache.rs:774-792: the style of a zone *)
Definition zone_style (zone : Z) (inner outer : style) : style :=
  if (zone =? 0)%Z then inner
  else if (zone =? 1)%Z then outer
  else if (zone =? 2)%Z then Style (fg inner) (bg outer) (bold inner) (dim inner) (italic inner) (underline inner) (strike inner) true
  else if (zone =? 3)%Z then Style (fg outer) (bg inner) (bold outer) (dim outer) (italic outer) (underline outer) (strike outer) true
  else inner.
End Paint.

(** border_chars.rs:61-157 [BORDER_CHARS]: three rows of left, fill, right (code
    points); a name that is not listed stands for "solid" (185-189).  The table
    is indexed by BorderKind through render_cache.rs:737-758 [border_kind_to_str]. *)
Definition glyph_rows : Type := (Z * Z * Z) * (Z * Z * Z) * (Z * Z * Z).
Definition sp : Z := 32%Z.
Definition border_chars (k : kind) : glyph_rows :=
  match k with
  | KNone | KHidden | KBlank => ((sp, sp, sp), (sp, sp, sp), (sp, sp, sp))
  | KRound => ((0x256d, 0x2500, 0x256e), (0x2502, sp, 0x2502), (0x2570, 0x2500, 0x256f))
  | KSolid => ((0x250c, 0x2500, 0x2510), (0x2502, sp, 0x2502), (0x2514, 0x2500, 0x2518))
  | KDouble => ((0x2554, 0x2550, 0x2557), (0x2551, sp, 0x2551), (0x255a, 0x2550, 0x255d))
  | KHeavy => ((0x250f, 0x2501, 0x2513), (0x2503, sp, 0x2503), (0x2517, 0x2501, 0x251b))
  | KAscii => ((43, 45, 43), (124, sp, 124), (43, 45, 43))
  | KDashed => ((0x250f, 0x254d, 0x2513), (0x254f, sp, 0x254f), (0x2517, 0x254d, 0x251b))
  | KThick => ((0x2588, 0x2580, 0x2588), (0x2588, sp, 0x2588), (0x2588, 0x2584, 0x2588))
  | KTall => ((0x258a, 0x2594, 0x258e), (0x258a, sp, 0x258e), (0x258a, 0x2581, 0x258e))
  | KPanel => ((0x258a, 0x2588, 0x258e), (0x258a, sp, 0x258e), (0x258a, 0x2581, 0x258e))
  | KWide => ((0x2581, 0x2581, 0x2581), (0x258e, sp, 0x258a), (0x2594, 0x2594, 0x2594))
  | KInner => ((0x2597, 0x2584, 0x2596), (0x2590, sp, 0x258c), (0x259d, 0x2580, 0x2598))
  | KOuter => ((0x259b, 0x2580, 0x259c), (0x258c, sp, 0x2590), (0x2599, 0x2584, 0x259f))
  | KBlock => ((0x2580, 0x2580, 0x2580), (0x2588, sp, 0x2588), (0x2584, 0x2584, 0x2584))
  | KHkey => ((0x2594, 0x2594, 0x2594), (sp, sp, sp), (0x2581, 0x2581, 0x2581))
  | KVkey => ((0x258f, sp, 0x2595), (0x258f, sp, 0x2595), (0x258f, sp, 0x2595))
  end%Z.
(** border_chars.rs:40-58, 160-180 [BORDER_LOCATIONS] *)
Definition border_locations (k : kind) : glyph_rows :=
  match k with
  | KTall | KPanel => ((2, 0, 1), (2, 0, 1), (2, 0, 1))
  | KWide => ((1, 1, 1), (0, 1, 3), (1, 1, 1))
  | KInner => ((1, 1, 1), (1, 1, 1), (1, 1, 1))
  | KBlock => ((1, 1, 1), (0, 0, 0), (1, 1, 1))
  | _ => ((0, 0, 0), (0, 0, 0), (0, 0, 0))
  end%Z.

Section Box.
Context {Mt : Type}.
Variable gw : Z -> nat.
Variable meta_empty : Mt.
Notation box_row := (@box_row Z style Mt).
Definition box : Type := box_row * box_row * box_row.

(** [Segment::styled(char.to_string(), style)] *)
Definition glyph_seg (g : Z) (s : style) : @segment Z style Mt := segment_new gw meta_empty [g] (Some s).
(** one row: border_box.rs:124-142; the three pairs of styles are those of
    render_cache.rs:794-819 [build_row] *)
Definition build_row (chars locs : Z * Z * Z) (left_in left_out fill_in fill_out right_in right_out : style) : box_row :=
  let '(lc, fc, rc) := chars in
  let '(ll, fl, rl) := locs in
  (glyph_seg lc (zone_style ll left_in left_out), glyph_seg fc (zone_style fl fill_in fill_out), glyph_seg rc (zone_style rl right_in right_out)).
(** border_box.rs:89-145 [generate_box] *)
Definition generate_box (k : kind) (inner outer : style) : box :=
  let '(c0, c1, c2) := border_chars k in
  let '(l0, l1, l2) := border_locations k in
  let row c l := build_row c l inner outer inner outer inner outer in
  (row c0 l0, row c1 l1, row c2 l2).
(** render_cache.rs:760-844 [build_border_box_per_edge]; pairs are (inner, outer) *)
Definition build_border_box_per_edge (k : kind) (top bottom left_ right_ : style * style) : box :=
  let '(c0, c1, c2) := border_chars k in
  let '(l0, l1, l2) := border_locations k in
  (build_row c0 l0 (fst top) (snd top) (fst top) (snd top) (fst top) (snd top),
   build_row c1 l1 (fst left_) (snd left_) (fst top) (snd top) (fst right_) (snd right_),
   build_row c2 l2 (fst bottom) (snd bottom) (fst bottom) (snd bottom) (fst bottom) (snd bottom)).

(** border_box.rs:26-39 [StyleKey] and 18-23 [BoxCacheKey] *)
Definition rgb_key (c : option rgba) : option (Z * Z * Z) := option_map (fun c => (c_r c, c_g c, c_b c)) c.
Definition style_key : Type := option (Z * Z * Z) * option (Z * Z * Z).
Definition key_of (s : style) : style_key := (rgb_key (fg s), rgb_key (bg s)).
Definition box_key : Type := kind * style_key * style_key.
Definition request : Type := kind * style * style.
Definition request_key (r : request) : box_key := let '(k, i, o) := r in (k, key_of i, key_of o).
Definition generate (r : request) : box := let '(k, i, o) := r in generate_box k i o.

(** derived Hash/Eq of the key *)
Definition rgb_eqb (a b : option (Z * Z * Z)) : bool :=
  match a, b with
  | None, None => true
  | Some (r, g, b), Some (r', g', b') => ((r =? r') && (g =? g') && (b =? b'))%Z
  | _, _ => false
  end.
Definition kind_code (k : kind) : Z :=
  match k with KNone => 0 | KHidden => 1 | KAscii => 2 | KBlank => 3 | KBlock => 4 | KDashed => 5 | KDouble => 6 | KHeavy => 7 | KHkey => 8 | KInner => 9
    | KOuter => 10 | KPanel => 11 | KRound => 12 | KSolid => 13 | KTall => 14 | KThick => 15 | KVkey => 16 | KWide => 17 end%Z.
Definition key_eqb (a b : box_key) : bool :=
  let '(k, (f, g), (h, i)) := a in
  let '(k', (f', g'), (h', i')) := b in
  (kind_code k =? kind_code k')%Z && rgb_eqb f f' && rgb_eqb g g' && rgb_eqb h h' && rgb_eqb i i'.

(** border_box.rs:42-43 [BOX_CACHE]; newest entry first, so [insert] shadows *)
Definition cache_map : Type := list (box_key * box).
Definition lookup (m : cache_map) (k : box_key) : option box := option_map snd (find (fun e => key_eqb (fst e) k) m).

(** border_box.rs:62-86 [get_box] takes the lock twice: a look-up under the read
    lock and, after a miss, an insertion under the write lock.  Between the two
    other threads may run; [clear_cache] (150-153) is one step. *)
Inductive box_step := BLookup (r : request) | BInsert (r : request) | BClear.
Definition step_cache (m : cache_map) (s : box_step) : cache_map :=
  match s with
  | BLookup _ => m
  | BInsert r => (request_key r, generate r) :: m
  | BClear => []
  end.
Definition run_cache (m : cache_map) (l : list box_step) : cache_map := fold_left step_cache l m.
(** the value the caller gets: that of the look-up, else the generated one *)
Definition answer (m : cache_map) (r : request) : box := match lookup m (request_key r) with Some b => b | None => generate r end.
(** [get_box] of a single thread *)
Definition get_box (m : cache_map) (r : request) : box * cache_map :=
  match lookup m (request_key r) with
  | Some b => (b, m)
  | None => (generate r, step_cache m (BInsert r))
  end.
Fixpoint get_boxes (m : cache_map) (l : list request) : list box :=
  match l with
  | [] => []
  | r :: t => let '(b, m') := get_box m r in b :: get_boxes m' t
  end.
End Box.
