(** Model of the layout cache of crates/textual/src/containers/container.rs
    (lines 60-75, 126-129, 331-375, 1368-1429).

    [lay c r v] is the arrangement computed afresh for the container's style and
    the styles and sizes of its children, together [c], in the region [r] on a
    terminal of size [v] (modelled in Arrange_Model). *)
From Coq Require Import ZArith List Bool.
From Verif Require Import Bars_Model Pointer_Model.
Import ListNotations.

Section Cache.
Variable config : Type.
Variable lay : config -> area -> view -> list placement.

(** container.rs:31-35 [CachedLayout] and 69; the content arranged so far *)
Record held := Held { h_config : config; h_cache : option (area * view * list placement) }.
Inductive change :=
| Own (f : config -> config)   (* container.rs:126-129, 1368-1429: [set_children], [set_style], [set_inline_style],
                                  [clear_inline_style], [mark_dirty], [on_resize] drop the cache *)
| Kid (f : config -> config)   (* a change made to a child through [for_each_child] or [get_child_mut], 1416-1420, 1613-1619 *)
| Ask (r : area) (v : view).   (* [compute_child_placements], by [render], [on_mouse] or [hit_test_children] *)

Definition area_eqb (a b : area) : bool := ((a_x a =? a_x b) && (a_y a =? a_y b) && (a_w a =? a_w b) && (a_h a =? a_h b))%Z.
Definition view_eqb (a b : view) : bool := ((vw_w a =? vw_w b) && (vw_h a =? vw_h b))%Z.
(** container.rs:331-375 [compute_child_placements] *)
Definition placements (s : held) (r : area) (v : view) : list placement * held :=
  let fresh := lay (h_config s) r v in
  match h_cache s with
  | Some (r0, v0, l) => if area_eqb r0 r && view_eqb v0 v then (l, s) else (fresh, Held (h_config s) (Some (r, v, fresh)))
  | None => (fresh, Held (h_config s) (Some (r, v, fresh)))
  end.
Definition step (s : held) (o : change) : held :=
  match o with
  | Own f => Held (f (h_config s)) None
  | Kid f => Held (f (h_config s)) (h_cache s)
  | Ask r v => snd (placements s r v)
  end.
Definition run (s : held) (l : list change) : held := fold_left step l s.
(** container.rs:93: a new container *)
Definition start (c : config) : held := Held c None.
End Cache.
Arguments Own {config}. Arguments Kid {config}. Arguments Ask {config}.
