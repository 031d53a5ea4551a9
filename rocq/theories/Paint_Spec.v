(** Specification vocabulary for styles, repainted lines and border boxes. *)
From Coq Require Import ZArith QArith List Bool.
From Verif Require Import Text_Model Strip_Model Strip_Spec Row_Model Colour_Model Colour_Spec Paint_Model.
Import ListNotations.

(** The two colours and the six attributes of a cell; a cell without style has
    none of them. *)
Inductive layer := Fore | Back.
Inductive attribute := Bold | Dim | Italic | Underline | Strike | Reverse.
Definition colour (l : layer) (o : option style) : option rgba :=
  match o with Some s => match l with Fore => fg s | Back => bg s end | None => None end.
Definition has (a : attribute) (o : option style) : bool :=
  match o with
  | Some s => match a with Bold => bold s | Dim => dim s | Italic => italic s | Underline => underline s | Strike => strike s | Reverse => reverse s end
  | None => false
  end.

(** [r] is what is seen when a cell of style [u] gets [top] on top: colours of
    [top] win, missing ones show [u], attributes accumulate. *)
Definition layered (top : style) (u r : option style) : Prop :=
  r <> None /\
  (forall l c, colour l (Some top) = Some c -> colour l r = Some c) /\
  (forall l, colour l (Some top) = None -> colour l r = colour l u) /\
  (forall a, has a r = true <-> has a u = true \/ has a (Some top) = true).

(** Same attributes; a style appears or disappears nowhere. *)
Definition same_attributes (u r : option style) : Prop := (r = None <-> u = None) /\ forall a, has a r = has a u.

Section Lines.
Context {G Mt : Type}.
Variable gw : G -> nat.
Notation strip := (@strip G style Mt).
(** [b] is [a] with new styles related to the old ones by [R]: the same
    characters in the same places with the same metadata. *)
Definition repainted (R : option style -> option style -> Prop) (a b : strip) : Prop :=
  Forall2 (fun x y : G * option style * Mt => fst (fst y) = fst (fst x) /\ snd y = snd x /\ R (snd (fst x)) (snd (fst y))) (cells a) (cells b) /\
  (strip_ok gw a -> strip_ok gw b /\ st_len b = st_len a).
End Lines.

(** The nine pieces of a border box. *)
Definition pieces {Mt : Type} (b : @box Mt) : list (@segment Z style Mt) :=
  let '((a, b, c), (d, e, f), (g, h, i)) := b in [a; b; c; d; e; f; g; h; i].
(** The red, green and blue of a colour that may be missing. *)
Definition rgb (c : option rgba) : option (Z * Z * Z) := match c with Some c => Some (c_r c, c_g c, c_b c) | None => None end.
(** What a piece looks like apart from transparency and text attributes. *)
Definition look {Mt : Type} (x : @segment Z style Mt) : list Z * nat * option (Z * Z * Z) * option (Z * Z * Z) * Mt :=
  (sg_text x, sg_len x, rgb (colour Fore (sg_style x)), rgb (colour Back (sg_style x)), sg_meta x).
(** Two requests for the same kind of border in the same colours, not counting
    transparency. *)
Definition alike (a b : request) : Prop :=
  let '(k, i, o) := a in
  let '(k', i', o') := b in
  k = k' /\ forall l, rgb (colour l (Some i)) = rgb (colour l (Some i')) /\ rgb (colour l (Some o)) = rgb (colour l (Some o')).

(** What the characters of borders look like (Unicode chart of box drawing and
    block elements).  A line character has arms of some weight (1 thin, 2 heavy,
    3 double) towards top, right, bottom and left; a block character fills part
    of a cell of eight by eight squares, counted from the upper left corner. *)
Inductive shape := Lines (top right bottom left : nat) | Block (filled : nat -> nat -> bool).
Definition left_part (n : nat) : shape := Block (fun x _ => x <? n)%nat.
Definition right_part (n : nat) : shape := Block (fun x _ => 8 - n <=? x)%nat.
Definition upper_part (n : nat) : shape := Block (fun _ y => y <? n)%nat.
Definition lower_part (n : nat) : shape := Block (fun _ y => 8 - n <=? y)%nat.
(** upper left, upper right, lower left and lower right quarter *)
Definition quarters (ul ur ll lr : bool) : shape :=
  Block (fun x y => if (y <? 4)%nat then (if (x <? 4)%nat then ul else ur) else (if (x <? 4)%nat then ll else lr)).
Definition unicode : list (Z * shape) :=
  [(32, left_part 0); (43, Lines 1 1 1 1); (45, Lines 0 1 0 1); (124, Lines 1 0 1 0);
   (0x2500, Lines 0 1 0 1); (0x2501, Lines 0 2 0 2); (0x2502, Lines 1 0 1 0); (0x2503, Lines 2 0 2 0);
   (0x250c, Lines 0 1 1 0); (0x250f, Lines 0 2 2 0); (0x2510, Lines 0 0 1 1); (0x2513, Lines 0 0 2 2);
   (0x2514, Lines 1 1 0 0); (0x2517, Lines 2 2 0 0); (0x2518, Lines 1 0 0 1); (0x251b, Lines 2 0 0 2);
   (0x254d, Lines 0 2 0 2); (0x254f, Lines 2 0 2 0);
   (0x2550, Lines 0 3 0 3); (0x2551, Lines 3 0 3 0); (0x2554, Lines 0 3 3 0); (0x2557, Lines 0 0 3 3);
   (0x255a, Lines 3 3 0 0); (0x255d, Lines 3 0 0 3);
   (0x256d, Lines 0 1 1 0); (0x256e, Lines 0 0 1 1); (0x256f, Lines 1 0 0 1); (0x2570, Lines 1 1 0 0);
   (0x2580, upper_part 4); (0x2581, lower_part 1); (0x2584, lower_part 4); (0x2588, left_part 8);
   (0x258a, left_part 6); (0x258c, left_part 4); (0x258e, left_part 2); (0x258f, left_part 1);
   (0x2590, right_part 4); (0x2594, upper_part 1); (0x2595, right_part 1);
   (0x2596, quarters false false true false); (0x2597, quarters false false false true);
   (0x2598, quarters true false false false); (0x2599, quarters true false true true);
   (0x259b, quarters true true true false); (0x259c, quarters true true false true);
   (0x259d, quarters false true false false); (0x259f, quarters false true true true)]%Z.
Definition shape_of (c : Z) : option shape := option_map snd (find (fun e => Z.eqb (fst e) c) unicode).

Section Seen.
Context {Mt : Type}.
Notation segment := (@segment Z style Mt).
(** A piece: the shape of its only character. *)
Definition piece_shape (s : segment) : option shape := match sg_text s with [c] => shape_of c | _ => None end.
(** The colour seen where a square is filled ([true]) or not: reversing the video
    exchanges the two. *)
Definition seen (s : segment) (filled : bool) : option rgba :=
  if xorb filled (has Reverse (sg_style s)) then colour Fore (sg_style s) else colour Back (sg_style s).
(** [b] looks like [a] in a mirror standing beside ([flip_x]) or below it. *)
Definition mirrored (flip_x : bool) (a b : segment) : Prop :=
  match piece_shape a, piece_shape b with
  | Some (Lines t r m l), Some (Lines t' r' m' l') =>
      (if flip_x then (t', r', m', l') = (t, l, m, r) else (t', r', m', l') = (m, r, t, l)) /\ forall f, seen a f = seen b f
  | Some (Block p), Some (Block q) => forall x y, (x < 8)%nat -> (y < 8)%nat ->
      seen a (p x y) = if flip_x then seen b (q (7 - x)%nat y) else seen b (q x (7 - y)%nat)
  | _, _ => False
  end.
End Seen.
(** Arms of a line character, none for others. *)
Definition arms {Mt : Type} (s : @segment Z style Mt) : option (nat * nat * nat * nat) :=
  match piece_shape s with Some (Lines t r b l) => Some (t, r, b, l) | _ => None end.
(** Whether a square of a block character is filled. *)
Definition filled_at {Mt : Type} (s : @segment Z style Mt) (x y : nat) : bool :=
  match piece_shape s with Some (Block p) => p x y | _ => false end.
