(** Model of crates/tcss/src/parser: selectors and specificity (stylesheet.rs),
    matching and the cascade (cascade.rs), nested rules (flatten.rs), comments and
    block skipping (mod.rs).

    Names are [text]; property values are an opaque type [V], and the operations
    of other modules on them (theme lookups, projections of compound values) are
    parameters. *)
From Coq Require Import String ZArith List Bool Arith.
From Verif Require Import Text_Model.
Import ListNotations.
Local Open Scope nat_scope.

(** *** Selectors *)

(** stylesheet.rs:57-75 [enum Selector] *)
Inductive selector :=
| SType (n : text) | SClass (n : text) | SId (n : text) | SUniversal
| SPseudo (n : text) | SParent | SAttr (n v : text).

(** stylesheet.rs:83-86 [CompoundSelector] *)
Definition compound := list selector.

(** stylesheet.rs:113-124 [enum Combinator] *)
Inductive combinator := CNone | CDescendant | CChild | CAdjacent | CSibling.

(** stylesheet.rs:128-133 [SelectorPart]: the combinator relates it to the part on its right *)
Definition part : Type := compound * combinator.

(** stylesheet.rs:153-156 [ComplexSelector] *)
Definition complex := list part.

(** stylesheet.rs:46-53 [Specificity]; u32 counters as naturals *)
Record specificity := Spec { sp_ids : nat; sp_classes : nat; sp_types : nat }.
Definition spec_zero : specificity := Spec 0 0 0.
Definition spec_add (a b : specificity) : specificity :=
  Spec (sp_ids a + sp_ids b) (sp_classes a + sp_classes b) (sp_types a + sp_types b).

(** stylesheet.rs:98-105: the contribution of one simple selector *)
Definition spec_one (s : selector) : specificity :=
  match s with
  | SId _ => Spec 1 0 0
  | SClass _ | SPseudo _ | SAttr _ _ => Spec 0 1 0
  | SType _ => Spec 0 0 1
  | SUniversal | SParent => spec_zero
  end.

(** stylesheet.rs:95-108 [CompoundSelector::specificity] *)
Definition compound_spec (c : compound) : specificity :=
  fold_left (fun acc s => spec_add acc (spec_one s)) c spec_zero.

(** stylesheet.rs:165-174 [ComplexSelector::specificity] *)
Definition complex_spec (c : complex) : specificity :=
  fold_left (fun acc p => spec_add acc (compound_spec (fst p))) c spec_zero.

(** stylesheet.rs:45 derived [Ord] (field by field) *)
Definition spec_cmp (a b : specificity) : comparison :=
  match Nat.compare (sp_ids a) (sp_ids b) with
  | Eq => match Nat.compare (sp_classes a) (sp_classes b) with
          | Eq => Nat.compare (sp_types a) (sp_types b)
          | o => o
          end
  | o => o
  end.

(** *** Matching *)

(** cascade.rs:72-83 [WidgetStates] *)
Record states := States { ws_focus : bool; ws_hover : bool; ws_active : bool; ws_disabled : bool }.

(** cascade.rs:90-103 [WidgetMeta] *)
Record meta := Meta {
  m_type : text; m_types : list text; m_id : option text; m_classes : list text; m_states : states }.

(** cascade.rs:36-40 [SelectorContext] *)
Record ctx := Ctx { c_dark : bool; c_ansi : bool; c_nocolor : bool }.

(** cascade.rs:115-145 [matches_selector] *)
Definition matches_selector (c : ctx) (w : meta) (s : selector) : bool :=
  match s with
  | SType n => if is_nil (m_types w) then text_eqb (m_type w) n else existsb (fun t => text_eqb t n) (m_types w)
  | SId i => match m_id w with Some x => text_eqb x i | None => false end
  | SClass n => existsb (text_eqb n) (m_classes w)
  | SUniversal => true
  | SPseudo n =>
      if text_eqb n (str "focus") then ws_focus (m_states w)
      else if text_eqb n (str "hover") then ws_hover (m_states w)
      else if text_eqb n (str "active") then ws_active (m_states w)
      else if text_eqb n (str "disabled") then ws_disabled (m_states w)
      else if text_eqb n (str "dark") then c_dark c
      else if text_eqb n (str "light") then negb (c_dark c)
      else if text_eqb n (str "ansi") then c_ansi c
      else if text_eqb n (str "nocolor") then c_nocolor c
      else false
  | SParent => false
  | SAttr _ _ => false
  end.

(** cascade.rs:163-167, 185-189: all simple selectors of a compound *)
Definition matches_compound (c : ctx) (w : meta) (k : compound) : bool := forallb (matches_selector c w) k.

(** cascade.rs:177-226: the remaining parts, rightmost first, against the
    ancestors, nearest first.  [current_part_idx == 0] with a match is the end of
    the list; the final expression of the code is always false (the loop ends only
    when the ancestors are exhausted). *)
Fixpoint match_up (c : ctx) (parts : list part) (ancestors : list meta) : bool :=
  match parts, ancestors with
  | [], _ => true
  | _ :: _, [] => false
  | (k, comb) :: ps, a :: rest =>
      match comb with
      | CChild => if matches_compound c a k then match_up c ps rest else false
      | CDescendant | CNone =>
          if matches_compound c a k then match_up c ps rest else match_up c parts rest
      | CAdjacent | CSibling => false
      end
  end.

(** cascade.rs:149-227 [matches_complex] *)
Definition matches_complex (c : ctx) (w : meta) (ancestors : list meta) (sel : complex) : bool :=
  match rev sel with
  | [] => false
  | (k, _) :: ps => if matches_compound c w k then match_up c ps ancestors else false
  end.

(** *** Rules and the cascade *)

Section Cascade.
Variable V : Type.   (* property values of every type *)

(** types/mod.rs:60-171 [ComputedStyle], one slot per leaf field that a
    declaration writes *)
Inductive slot :=
| color | background | auto_color | tint | background_tint
| width | height | min_width | max_width | min_height | max_height
| margin_top | margin_right | margin_bottom | margin_left
| padding_top | padding_right | padding_bottom | padding_left
| border_top | border_right | border_bottom | border_left
| outline_top | outline_right | outline_bottom | outline_left
| border_title_align | border_subtitle_align | border_title_color | border_subtitle_color
| border_title_background | border_subtitle_background | border_title_style | border_subtitle_style
| sb_color | sb_color_hover | sb_color_active | sb_background | sb_background_hover
| sb_background_active | sb_corner_color | sb_size_horizontal | sb_size_vertical | sb_gutter | sb_visibility
| box_sizing | display | visibility | visibility_set | opacity | overflow_x | overflow_y
| layout | position | dock | layers | layer
| grid_columns_count | grid_rows_count | grid_column_widths | grid_row_heights
| grid_gutter_v | grid_gutter_h | column_span | row_span
| link_color | link_color_hover | link_background | link_background_hover | link_style | link_style_hover
| text_align | text_overflow | text_wrap | line_pad | text_opacity | text_style
| content_align_horizontal | content_align_vertical | align_horizontal | align_vertical
| hatch | keyline | offset_x | offset_y.
Scheme Equality for slot.

(** stylesheet.rs:198-424 [enum Declaration] *)
Inductive declaration :=
| DColor (c : V) | DBackground (c : V) | DTint (c : V) | DBackgroundTint (c : V)
| DWidth (s : V) | DHeight (s : V) | DMaxHeight (s : V) | DMaxWidth (s : V) | DMinHeight (s : V) | DMinWidth (s : V)
| DMargin (s : V) | DMarginTop (s : V) | DMarginRight (s : V) | DMarginBottom (s : V) | DMarginLeft (s : V)
| DPadding (s : V) | DPaddingTop (s : V) | DPaddingRight (s : V) | DPaddingBottom (s : V) | DPaddingLeft (s : V)
| DBorder (e : V)
| DScrollbarColor (c : V) | DScrollbarColorHover (c : V) | DScrollbarColorActive (c : V)
| DScrollbarBackground (c : V) | DScrollbarBackgroundHover (c : V) | DScrollbarBackgroundActive (c : V)
| DScrollbarCornerColor (c : V) | DScrollbarSize (s : V) | DScrollbarSizeHorizontal (n : V)
| DScrollbarSizeVertical (n : V) | DScrollbarGutter (g : V) | DScrollbarVisibility (v : V)
| DBoxSizing (b : V) | DDisplay (d : V) | DVisibility (v : V) | DOpacity (o : V)
| DOverflowX (o : V) | DOverflowY (o : V) | DOverflow (x y : V)
| DLayout (l : V) | DPosition (p : V) | DDock (d : V) | DLayers (l : V) | DLayer (l : V)
| DGridSize (cols : V) (rows : V) | DGridColumns (l : V) | DGridRows (l : V) | DGridGutter (v : V) (h : option V)
| DColumnSpan (n : V) | DRowSpan (n : V)
| DLinkColor (c : V) | DLinkColorHover (c : V) | DLinkBackground (c : V) | DLinkBackgroundHover (c : V)
| DLinkStyle (s : V) | DLinkStyleHover (s : V)
| DTextAlign (a : V) | DTextOverflow (o : V) | DTextWrap (w : V) | DLinePad (n : V) | DTextOpacity (o : V) | DTextStyle (s : V)
| DContentAlignHorizontal (a : V) | DContentAlignVertical (a : V) | DContentAlign (h v : V)
| DAlignHorizontal (a : V) | DAlignVertical (a : V) | DAlign (h v : V)
| DBorderTitleAlign (a : V) | DBorderSubtitleAlign (a : V) | DBorderTitleColor (c : V) | DBorderSubtitleColor (c : V)
| DBorderTitleBackground (c : V) | DBorderSubtitleBackground (c : V) | DBorderTitleStyle (s : V) | DBorderSubtitleStyle (s : V)
| DBorderTop (e : V) | DBorderBottom (e : V) | DBorderLeft (e : V) | DBorderRight (e : V)
| DOutline (e : V) | DOutlineTop (e : V) | DOutlineRight (e : V) | DOutlineBottom (e : V) | DOutlineLeft (e : V)
| DHatch (h : V) | DKeyline (k : V) | DOffset (x y : V) | DOffsetX (x : V) | DOffsetY (y : V)
| DUnknown (n : text).

(** The theme and the field accessors, as parameters. *)
Variable theme_color : V -> V.        (* resolve_theme_color, cascade.rs:606-653 *)
Variable theme_edge : V -> V.         (* a BorderEdge with its colour resolved, e.g. cascade.rs:308-311 *)
Variable theme_style : V -> V.        (* resolve_theme_style, cascade.rs:655-661 *)
Variable theme_hatch theme_keyline : V -> V.  (* cascade.rs:578-579, 585-586 *)
Variable auto_flag : V -> V.          (* c.auto || resolved.auto, cascade.rs:279 *)
Variable v_true : V.                  (* true *)
Variable sp_top sp_right sp_bottom sp_left : V -> V.   (* fields of Spacing *)
Variable size_h size_v : V -> V.      (* fields of ScrollbarSize *)
Variable merge : V -> V -> V.         (* TextStyle::merge, types/text.rs:118-150 *)

(** A computed style: a value per slot. *)
Definition cstyle := slot -> V.
Definition set (s : cstyle) (k : slot) (v : V) : cstyle := fun x => if slot_eq_dec x k then v else s x.
Definition merge_in (s : cstyle) (k : slot) (v : V) : cstyle := set s k (merge (s k) v).

(** cascade.rs:275-604 [apply_declaration] *)
Definition apply_declaration (s : cstyle) (d : declaration) : cstyle :=
  match d with
  | DColor c => set (set s auto_color (auto_flag c)) color (theme_color c)
  | DBackground c => set s background (theme_color c)
  | DTint c => set s tint (theme_color c)
  | DBackgroundTint c => set s background_tint (theme_color c)
  | DWidth v => set s width v
  | DHeight v => set s height v
  | DMaxHeight v => set s max_height v
  | DMaxWidth v => set s max_width v
  | DMinHeight v => set s min_height v
  | DMinWidth v => set s min_width v
  | DMargin v => set (set (set (set s margin_top (sp_top v)) margin_right (sp_right v)) margin_bottom (sp_bottom v)) margin_left (sp_left v)
  | DMarginTop v => set s margin_top v
  | DMarginRight v => set s margin_right v
  | DMarginBottom v => set s margin_bottom v
  | DMarginLeft v => set s margin_left v
  | DPadding v => set (set (set (set s padding_top (sp_top v)) padding_right (sp_right v)) padding_bottom (sp_bottom v)) padding_left (sp_left v)
  | DPaddingTop v => set s padding_top v
  | DPaddingRight v => set s padding_right v
  | DPaddingBottom v => set s padding_bottom v
  | DPaddingLeft v => set s padding_left v
  | DBorder e => set (set (set (set s border_top (theme_edge e)) border_right (theme_edge e)) border_bottom (theme_edge e)) border_left (theme_edge e)
  | DBorderTitleAlign a => set s border_title_align a
  | DBorderSubtitleAlign a => set s border_subtitle_align a
  | DBorderTitleColor c => set s border_title_color (theme_color c)
  | DBorderSubtitleColor c => set s border_subtitle_color (theme_color c)
  | DBorderTitleBackground c => set s border_title_background (theme_color c)
  | DBorderSubtitleBackground c => set s border_subtitle_background (theme_color c)
  | DBorderTitleStyle v => merge_in s border_title_style v
  | DBorderSubtitleStyle v => merge_in s border_subtitle_style v
  | DBorderTop e => set s border_top (theme_edge e)
  | DBorderBottom e => set s border_bottom (theme_edge e)
  | DBorderLeft e => set s border_left (theme_edge e)
  | DBorderRight e => set s border_right (theme_edge e)
  | DOutline e => set (set (set (set s outline_top (theme_edge e)) outline_right (theme_edge e)) outline_bottom (theme_edge e)) outline_left (theme_edge e)
  | DOutlineTop e => set s outline_top (theme_edge e)
  | DOutlineRight e => set s outline_right (theme_edge e)
  | DOutlineBottom e => set s outline_bottom (theme_edge e)
  | DOutlineLeft e => set s outline_left (theme_edge e)
  | DScrollbarColor c => set s sb_color (theme_color c)
  | DScrollbarColorHover c => set s sb_color_hover (theme_color c)
  | DScrollbarColorActive c => set s sb_color_active (theme_color c)
  | DScrollbarBackground c => set s sb_background (theme_color c)
  | DScrollbarBackgroundHover c => set s sb_background_hover (theme_color c)
  | DScrollbarBackgroundActive c => set s sb_background_active (theme_color c)
  | DScrollbarCornerColor c => set s sb_corner_color (theme_color c)
  | DScrollbarSize v => set (set s sb_size_horizontal (size_h v)) sb_size_vertical (size_v v)
  | DScrollbarSizeHorizontal n => set s sb_size_horizontal n
  | DScrollbarSizeVertical n => set s sb_size_vertical n
  | DScrollbarGutter g => set s sb_gutter g
  | DScrollbarVisibility v => set s sb_visibility v
  | DBoxSizing b => set s box_sizing b
  | DDisplay d => set s display d
  | DVisibility v => set (set s visibility v) visibility_set v_true
  | DOpacity o => set s opacity o
  | DOverflow x y => set (set s overflow_x x) overflow_y y
  | DOverflowX o => set s overflow_x o
  | DOverflowY o => set s overflow_y o
  | DLayout l => set s layout l
  | DPosition p => set s position p
  | DDock d => set s dock d
  | DLayers l => set s layers l
  | DLayer l => set s layer l
  | DGridSize c r => set (set s grid_columns_count c) grid_rows_count r
  | DGridColumns l => set s grid_column_widths l
  | DGridRows l => set s grid_row_heights l
  | DGridGutter v h => set (set s grid_gutter_v v) grid_gutter_h (match h with Some x => x | None => v end)
  | DColumnSpan n => set s column_span n
  | DRowSpan n => set s row_span n
  | DLinkColor c => set s link_color (theme_color c)
  | DLinkColorHover c => set s link_color_hover (theme_color c)
  | DLinkBackground c => set s link_background (theme_color c)
  | DLinkBackgroundHover c => set s link_background_hover (theme_color c)
  | DLinkStyle v => set s link_style (theme_style v)
  | DLinkStyleHover v => set s link_style_hover (theme_style v)
  | DTextAlign a => set s text_align a
  | DTextOverflow o => set s text_overflow o
  | DTextWrap w => set s text_wrap w
  | DLinePad n => set s line_pad n
  | DTextOpacity o => set s text_opacity o
  | DTextStyle v => merge_in s text_style (theme_style v)
  | DContentAlignHorizontal a => set s content_align_horizontal a
  | DContentAlignVertical a => set s content_align_vertical a
  | DContentAlign h v => set (set s content_align_horizontal h) content_align_vertical v
  | DAlignHorizontal a => set s align_horizontal a
  | DAlignVertical a => set s align_vertical a
  | DAlign h v => set (set s align_horizontal h) align_vertical v
  | DHatch h => set s hatch (theme_hatch h)
  | DKeyline k => set s keyline (theme_keyline k)
  | DOffset x y => set (set s offset_x x) offset_y y
  | DOffsetX x => set s offset_x x
  | DOffsetY y => set s offset_y y
  | DUnknown _ => s
  end.

(** stylesheet.rs:428-450 [RuleItem], [Rule] *)
Inductive item := IDecl (d : declaration) | INested (r : rule)
with rule := Rule (selectors : list complex) (items : list item).

Definition r_sels (r : rule) : list complex := let 'Rule s _ := r in s.
Definition r_items (r : rule) : list item := let 'Rule _ i := r in i.

(** stylesheet.rs:461-469 [declarations] *)
Definition decls_of (items : list item) : list declaration :=
  flat_map (fun i => match i with IDecl d => [d] | INested _ => [] end) items.

(** cascade.rs:107-111 [MatchedRule] *)
Record matched := Matched { mr_spec : specificity; mr_order : nat; mr_rule : rule }.

(** cascade.rs:241-253: the rules that match, each with the specificity of its
    first matching selector *)
Fixpoint match_rules (c : ctx) (w : meta) (ancestors : list meta) (idx : nat) (rules : list rule) : list matched :=
  match rules with
  | [] => []
  | r :: rest =>
      match find (matches_complex c w ancestors) (r_sels r) with
      | Some sel => Matched (complex_spec sel) idx r :: match_rules c w ancestors (S idx) rest
      | None => match_rules c w ancestors (S idx) rest
      end
  end.

(** cascade.rs:256-260: comparison of matched rules *)
Definition matched_cmp (a b : matched) : comparison :=
  match spec_cmp (mr_spec a) (mr_spec b) with
  | Eq => Nat.compare (mr_order a) (mr_order b)
  | o => o
  end.

(** [slice::sort_by] is a stable sort; modelled by insertion sort *)
Fixpoint insert_matched (x : matched) (l : list matched) : list matched :=
  match l with
  | [] => [x]
  | y :: r => match matched_cmp x y with Gt => y :: insert_matched x r | _ => x :: l end
  end.
Definition sort_matched (l : list matched) : list matched := fold_right insert_matched [] l.

(** cascade.rs:264-270: applying a rule *)
Definition apply_rule (s : cstyle) (r : rule) : cstyle := fold_left apply_declaration (decls_of (r_items r)) s.

(** cascade.rs:231-273 [compute_style] *)
Definition compute_style (default : cstyle) (c : ctx) (w : meta) (ancestors : list meta) (rules : list rule) : cstyle :=
  fold_left (fun s m => apply_rule s (mr_rule m)) (sort_matched (match_rules c w ancestors 0 rules)) default.

(** *** Nested rules *)

Definition is_parent (s : selector) : bool := match s with SParent => true | _ => false end.
Definition is_cnone (c : combinator) : bool := match c with CNone => true | _ => false end.

(** changing the last element *)
Fixpoint map_last {A} (f : A -> A) (l : list A) : list A :=
  match l with
  | [] => []
  | [x] => [f x]
  | x :: r => x :: map_last f r
  end.

(** flatten.rs:86-124: one parent selector with one child selector *)
Definition combine_one (p child : complex) : complex :=
  match child with
  | [] => p
  | (k, comb) :: rest =>
      if existsb is_parent k then
        map_last (fun '(pk, pc) =>
            (pk ++ filter (fun s => negb (is_parent s)) k, if is_cnone comb then pc else comb)) p ++ rest
      else
        map_last (fun '(pk, pc) => (pk, if is_cnone pc then CDescendant else pc)) p ++ child
  end.

(** flatten.rs:79-128 [combine_selectors] *)
Definition combine_selectors (parents children : list complex) : list complex :=
  flat_map (fun p => map (combine_one p) children) parents.

(** flatten.rs:49-77 [flatten_rule]; at the top level and in every recursive call
    the parents of nested rules are the rule's own (already combined) selectors *)
Fixpoint flatten_rule (sels : list complex) (r : rule) {struct r} : list rule :=
  match r with
  | Rule _ items =>
      let own := decls_of items in
      let nested :=
        (fix go (l : list item) : list rule :=
           match l with
           | [] => []
           | IDecl _ :: rest => go rest
           | INested n :: rest => flatten_rule (combine_selectors sels (r_sels n)) n ++ go rest
           end) items in
      match own with
      | [] => nested
      | _ => Rule sels (map IDecl own) :: nested
      end
  end.

(** flatten.rs:41-47 [flatten_stylesheet] *)
Definition flatten_stylesheet (rules : list rule) : list rule :=
  flat_map (fun r => flatten_rule (r_sels r) r) rules.

End Cascade.

(** *** Comments and blocks *)

Definition c_slash : char := 47%Z.
Definition c_star : char := 42%Z.
Definition c_newline : char := 10%Z.
Definition c_space : char := 32%Z.
Definition c_lbrace : char := 123%Z.
Definition c_rbrace : char := 125%Z.

(** mod.rs:74-103, the three loops of [strip_comments] as one automaton *)
Inductive scan_mode := InCode | InBlock | InLine.
Fixpoint strip_scan (m : scan_mode) (t : text) {struct t} : text :=
  match t with
  | [] => []
  | c :: r =>
      match m with
      | InCode =>
          if (c =? c_slash)%Z then
            match r with
            | d :: r' =>
                if (d =? c_star)%Z then strip_scan InBlock r'
                else if (d =? c_slash)%Z then strip_scan InLine r'
                else c :: strip_scan InCode r
            | [] => [c]
            end
          else c :: strip_scan InCode r
      | InBlock =>
          match r with
          | d :: r' => if ((c =? c_star) && (d =? c_slash))%Z then c_space :: strip_scan InCode r' else strip_scan InBlock r
          | [] => []
          end
      | InLine => if (c =? c_newline)%Z then c_newline :: strip_scan InCode r else strip_scan InLine r
      end
  end.
Definition strip_comments (t : text) : text := strip_scan InCode t.

(** mod.rs:391-407 [take_until_balanced_braces]: (taken, remaining); the depth is
    an i32 that may go negative *)
Fixpoint take_balanced (depth : Z) (t : text) : text * text :=
  match t with
  | [] => ([], [])
  | c :: r =>
      if (c =? c_lbrace)%Z then let '(a, b) := take_balanced (depth + 1) r in (c :: a, b)
      else if (c =? c_rbrace)%Z then
        if (depth - 1 =? 0)%Z then ([c], r)
        else let '(a, b) := take_balanced (depth - 1) r in (c :: a, b)
      else let '(a, b) := take_balanced depth r in (c :: a, b)
  end.
Definition take_until_balanced_braces (t : text) : text * text := take_balanced 0%Z t.
