(** What keylines should look like, said without the drawing code.

    A picture of lines is a set of unit strokes between neighbouring cells: a
    stroke goes from the middle of a cell to the middle of the cell on its right,
    or to the middle of the cell below.  A cell shows a line leaving on a side
    exactly when the stroke over that side is in the picture. *)
From Coq Require Import List Arith ZArith.
From Verif Require Import Grid_Model Keyline_Model.
Import ListNotations.
Open Scope nat_scope.

Inductive side := Above | Rightwards | Below | Leftwards.

Definition arm (s : side) (q : quad) : nat :=
  match s with
  | Above => q_top q | Rightwards => q_right q | Below => q_bottom q | Leftwards => q_left q
  end.

(** The plain line characters of Unicode's Box Drawing block (U+2500 to U+257F;
    dashed, rounded and diagonal ones left out) with the thickness of the line
    each has towards (up, right, down, left), as its Unicode name says:
    1 LIGHT or SINGLE, 2 HEAVY, 3 DOUBLE. *)
Definition unicode_box_drawings : list (Z * quad) :=
  [(9472, Quad 0 1 0 1);
   (9473, Quad 0 2 0 2);
   (9474, Quad 1 0 1 0);
   (9475, Quad 2 0 2 0);
   (9484, Quad 0 1 1 0);
   (9485, Quad 0 2 1 0);
   (9486, Quad 0 1 2 0);
   (9487, Quad 0 2 2 0);
   (9488, Quad 0 0 1 1);
   (9489, Quad 0 0 1 2);
   (9490, Quad 0 0 2 1);
   (9491, Quad 0 0 2 2);
   (9492, Quad 1 1 0 0);
   (9493, Quad 1 2 0 0);
   (9494, Quad 2 1 0 0);
   (9495, Quad 2 2 0 0);
   (9496, Quad 1 0 0 1);
   (9497, Quad 1 0 0 2);
   (9498, Quad 2 0 0 1);
   (9499, Quad 2 0 0 2);
   (9500, Quad 1 1 1 0);
   (9501, Quad 1 2 1 0);
   (9502, Quad 2 1 1 0);
   (9503, Quad 1 1 2 0);
   (9504, Quad 2 1 2 0);
   (9505, Quad 2 2 1 0);
   (9506, Quad 1 2 2 0);
   (9507, Quad 2 2 2 0);
   (9508, Quad 1 0 1 1);
   (9509, Quad 1 0 1 2);
   (9510, Quad 2 0 1 1);
   (9511, Quad 1 0 2 1);
   (9512, Quad 2 0 2 1);
   (9513, Quad 2 0 1 2);
   (9514, Quad 1 0 2 2);
   (9515, Quad 2 0 2 2);
   (9516, Quad 0 1 1 1);
   (9517, Quad 0 1 1 2);
   (9518, Quad 0 2 1 1);
   (9519, Quad 0 2 1 2);
   (9520, Quad 0 1 2 1);
   (9521, Quad 0 1 2 2);
   (9522, Quad 0 2 2 1);
   (9523, Quad 0 2 2 2);
   (9524, Quad 1 1 0 1);
   (9525, Quad 1 1 0 2);
   (9526, Quad 1 2 0 1);
   (9527, Quad 1 2 0 2);
   (9528, Quad 2 1 0 1);
   (9529, Quad 2 1 0 2);
   (9530, Quad 2 2 0 1);
   (9531, Quad 2 2 0 2);
   (9532, Quad 1 1 1 1);
   (9533, Quad 1 1 1 2);
   (9534, Quad 1 2 1 1);
   (9535, Quad 1 2 1 2);
   (9536, Quad 2 1 1 1);
   (9537, Quad 1 1 2 1);
   (9538, Quad 2 1 2 1);
   (9539, Quad 2 1 1 2);
   (9540, Quad 2 2 1 1);
   (9541, Quad 1 1 2 2);
   (9542, Quad 1 2 2 1);
   (9543, Quad 2 2 1 2);
   (9544, Quad 1 2 2 2);
   (9545, Quad 2 1 2 2);
   (9546, Quad 2 2 2 1);
   (9547, Quad 2 2 2 2);
   (9552, Quad 0 3 0 3);
   (9553, Quad 3 0 3 0);
   (9554, Quad 0 3 1 0);
   (9555, Quad 0 1 3 0);
   (9556, Quad 0 3 3 0);
   (9557, Quad 0 0 1 3);
   (9558, Quad 0 0 3 1);
   (9559, Quad 0 0 3 3);
   (9560, Quad 1 3 0 0);
   (9561, Quad 3 1 0 0);
   (9562, Quad 3 3 0 0);
   (9563, Quad 1 0 0 3);
   (9564, Quad 3 0 0 1);
   (9565, Quad 3 0 0 3);
   (9566, Quad 1 3 1 0);
   (9567, Quad 3 1 3 0);
   (9568, Quad 3 3 3 0);
   (9569, Quad 1 0 1 3);
   (9570, Quad 3 0 3 1);
   (9571, Quad 3 0 3 3);
   (9572, Quad 0 3 1 3);
   (9573, Quad 0 1 3 1);
   (9574, Quad 0 3 3 3);
   (9575, Quad 1 3 0 3);
   (9576, Quad 3 1 0 1);
   (9577, Quad 3 3 0 3);
   (9578, Quad 1 3 1 3);
   (9579, Quad 3 1 3 1);
   (9580, Quad 3 3 3 3);
   (9588, Quad 0 0 0 1);
   (9589, Quad 1 0 0 0);
   (9590, Quad 0 1 0 0);
   (9591, Quad 0 0 1 0);
   (9592, Quad 0 0 0 2);
   (9593, Quad 2 0 0 0);
   (9594, Quad 0 2 0 0);
   (9595, Quad 0 0 2 0);
   (9596, Quad 0 2 0 1);
   (9597, Quad 1 0 2 0);
   (9598, Quad 0 1 0 2);
   (9599, Quad 2 0 1 0)]%Z.

(** Character [ch] shows a line of thickness [n s] on each side [s]. *)
Definition looks (ch : Z) (n : side -> nat) : Prop :=
  exists q, In (ch, q) unicode_box_drawings /\ forall s, arm s q = n s.

Record picture := Picture {
  across : nat -> nat -> Prop;   (* the stroke from (x, y) to (x+1, y) *)
  downwards : nat -> nat -> Prop (* the stroke from (x, y) to (x, y+1) *) }.

Definition leaves (p : picture) (x y : nat) (s : side) : Prop :=
  match s with
  | Rightwards => across p x y
  | Below => downwards p x y
  | Leftwards => exists x', x = S x' /\ across p x' y
  | Above => exists y', y = S y' /\ downwards p x y'
  end.

(** [out] is the picture [p], seen through a window of w x h cells whose corner
    is at (rx, ry), in lines of thickness [lt]: the cells touched by a stroke,
    and no others, get one character, and this shows exactly the strokes of the
    cell. *)
Definition depicts (p : picture) (lt : nat) (rx ry : Z) (w h : nat)
  (out : list (Z * Z * Z)) : Prop :=
  (forall X Y ch, In (X, Y, ch) out ->
     exists x y s, x < w /\ y < h /\ X = (rx + Z.of_nat x)%Z /\ Y = (ry + Z.of_nat y)%Z
                   /\ leaves p x y s)
  /\ forall x y s, x < w -> y < h -> leaves p x y s ->
     exists ch n, In ((rx + Z.of_nat x)%Z, (ry + Z.of_nat y)%Z, ch) out
       /\ (forall ch', In ((rx + Z.of_nat x)%Z, (ry + Z.of_nat y)%Z, ch') out -> ch' = ch)
       /\ looks ch n
       /\ forall s', (leaves p x y s' /\ n s' = lt) \/ (~ leaves p x y s' /\ n s' = 0).

(** The outlines of boxes (x, y, width, height), each through the middle of the
    box's outermost cells. *)
Definition box : Type := nat * nat * nat * nat.
Definition outlines (bs : list box) : picture := Picture
  (fun x y => exists bx by' w h, In (bx, by', w, h) bs
      /\ bx <= x /\ x + 1 < bx + w /\ (y = by' \/ y + 1 = by' + h))
  (fun x y => exists bx by' w h, In (bx, by', w, h) bs
      /\ by' <= y /\ y + 1 < by' + h /\ (x = bx \/ x + 1 = bx + w)).

(** A lattice with vertical lines at [cols] and horizontal lines at [rows],
    of which only some stretches are wanted: [wide i j] says whether the i-th
    horizontal line runs along column j (between cols[j] and cols[j+1]), and
    [tall i j] whether the j-th vertical line runs along row i. *)
Definition lattice (cols rows : list nat) (wide tall : nat -> nat -> Prop) : picture := Picture
  (fun x y => exists i j, i < length rows /\ S j < length cols /\ y = nth i rows 0
      /\ nth j cols 0 <= x < nth (S j) cols 0 /\ wide i j)
  (fun x y => exists i j, S i < length rows /\ j < length cols /\ x = nth j cols 0
      /\ nth i rows 0 <= y < nth (S i) rows 0 /\ tall i j).

Definition full_lattice (cols rows : list nat) : picture :=
  lattice cols rows (fun _ _ => True) (fun _ _ => True).

(** Who has a cell of a table: nobody outside the table. *)
Definition holder (occ : list (list (option nat))) (r c : nat) : option nat :=
  nth c (nth r occ []) None.

(** Lines around the table and between cells that different widgets have. *)
Definition partition_lines (cols rows : list nat) (occ : list (list (option nat))) : picture :=
  lattice cols rows
    (fun i j => i = 0 \/ S i = length rows \/ holder occ (i - 1) j <> holder occ i j)
    (fun i j => j = 0 \/ S j = length cols \/ holder occ i (j - 1) <> holder occ i j).

Definition increasing (l : list nat) : Prop :=
  forall i, S i < length l -> nth i l 0 < nth (S i) l 0.

(** A frame of w x h cells with vertical dividers in the columns [ends]. *)
Definition framed_row (w h : nat) (ends : list Z) : picture := Picture
  (fun x y => x + 1 < w /\ (y = 0 \/ y + 1 = h))
  (fun x y => y + 1 < h /\ x < w /\ (x = 0 \/ x + 1 = w \/ In (Z.of_nat x) ends)).
(** A frame with horizontal dividers in the rows [ends]. *)
Definition framed_column (w h : nat) (ends : list Z) : picture := Picture
  (fun x y => x + 1 < w /\ y < h /\ (y = 0 \/ y + 1 = h \/ In (Z.of_nat y) ends))
  (fun x y => y + 1 < h /\ (x = 0 \/ x + 1 = w)).

(** Several boxes added to a canvas one after the other. *)
Definition add_boxes (k : keylines) (bs : list box) : keylines :=
  fold_left (fun k b => match b with (x, y, w, h) => add_widget_box k x y w h end) bs k.
(** A box with a left and a right side and a top and a bottom. *)
Definition proper (b : box) : Prop := match b with (_, _, w, h) => 2 <= w /\ 2 <= h end.

(** All tracks end two cells before the end: there is room for the frame. *)
Definition fits (ts : list track) (size : nat) : Prop :=
  Forall (fun t => (t_offset t + t_size t <= Z.of_nat size - 2)%Z) ts.
(** Lines where the tracks start, and one in the last cell. *)
Definition track_lines (ts : list track) (size : nat) : list nat :=
  map (fun t => Z.to_nat (t_offset t)) ts ++ [size - 1].
