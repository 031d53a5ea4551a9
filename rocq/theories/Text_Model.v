(** Strings shared by the other models.  A Rust [char] is its scalar value (a
    [Z]); a [str]/[String] is the list of its chars.  Byte offsets are sums of
    UTF-8 lengths; slicing at an offset that is not a char boundary panics. *)
From Coq Require Import ZArith List Bool Ascii String.
Import ListNotations.
Open Scope Z_scope.

Definition char := Z.
Definition text := list char.

(** String literals. *)
Fixpoint str (s : string) : text :=
  match s with
  | EmptyString => []
  | String a r => Z.of_nat (nat_of_ascii a) :: str r
  end.

(** Results with Rust's [Err] and panics kept apart; error payloads are dropped. *)
Inductive res (A : Type) := Ok (a : A) | Err | Panic.
Arguments Ok {A} a.
Arguments Err {A}.
Arguments Panic {A}.

Definition bind {A B} (r : res A) (f : A -> res B) : res B :=
  match r with Ok a => f a | Err => Err | Panic => Panic end.

(** [char::len_utf8] (core library) *)
Definition utf8_len (c : char) : nat :=
  if c <? 128 then 1 else if c <? 2048 then 2 else if c <? 65536 then 3 else 4.

(** [str::len]: the length in bytes *)
Definition blen (t : text) : nat := fold_right (fun c n => (utf8_len c + n)%nat) 0%nat t.

(** [&s[..n]] and [&s[n..]]: [None] is the panic for an offset past the end or
    inside a char *)
Fixpoint bsplit (n : nat) (t : text) : option (text * text) :=
  match n with
  | O => Some ([], t)
  | _ =>
      match t with
      | [] => None
      | c :: r =>
          if (utf8_len c <=? n)%nat then
            match bsplit (n - utf8_len c) r with
            | Some (a, b) => Some (c :: a, b)
            | None => None
            end
          else None
      end
  end.

(** [&s[a..b]] *)
Definition bslice (a b : nat) (t : text) : option text :=
  if (b <? a)%nat then None
  else match bsplit b t with
       | None => None
       | Some (p, _) => option_map snd (bsplit a p)
       end.

(** [char::is_whitespace] (Unicode White_Space, core library) *)
Definition is_ws (c : char) : bool :=
  ((9 <=? c) && (c <=? 13)) || (c =? 32) || (c =? 133) || (c =? 160) || (c =? 5760)
  || ((8192 <=? c) && (c <=? 8202)) || (c =? 8232) || (c =? 8233) || (c =? 8239)
  || (c =? 8287) || (c =? 12288).

Fixpoint text_eqb (a b : text) : bool :=
  match a, b with
  | [], [] => true
  | x :: r, y :: q => (x =? y) && text_eqb r q
  | _, _ => false
  end.

Fixpoint starts_with (t p : text) : bool :=
  match p, t with
  | [], _ => true
  | x :: q, y :: r => (x =? y) && starts_with r q
  | _ :: _, [] => false
  end.

Definition ends_with (t p : text) : bool := starts_with (rev t) (rev p).

(** [str::contains] of a substring *)
Fixpoint contains_str (t p : text) : bool :=
  starts_with t p || match t with [] => false | _ :: r => contains_str r p end.

(** [str::trim_start], [trim_end], [trim] *)
Fixpoint trim_start (t : text) : text :=
  match t with [] => [] | c :: r => if is_ws c then trim_start r else t end.
Definition trim_end (t : text) : text := rev (trim_start (rev t)).
Definition trim (t : text) : text := trim_end (trim_start t).

(** [trim_start_matches(c)] and [trim_end_matches(c)] *)
Fixpoint trim_start_char (c : char) (t : text) : text :=
  match t with [] => [] | x :: r => if x =? c then trim_start_char c r else t end.
Definition trim_end_char (c : char) (t : text) : text := rev (trim_start_char c (rev t)).

(** [str::split(c)]: pieces between separators, always at least one *)
Fixpoint split_char (c : char) (t : text) : list text :=
  match t with
  | [] => [[]]
  | x :: r =>
      if x =? c then [] :: split_char c r
      else match split_char c r with
           | [] => [[x]]
           | p :: ps => (x :: p) :: ps
           end
  end.

(** [str::split_whitespace] *)
Definition is_nil {A} (l : list A) : bool := match l with [] => true | _ => false end.
Fixpoint split_ws_all (t : text) : list text :=
  match t with
  | [] => [[]]
  | x :: r =>
      if is_ws x then [] :: split_ws_all r
      else match split_ws_all r with
           | [] => [[x]]
           | p :: ps => (x :: p) :: ps
           end
  end.
Definition split_ws (t : text) : list text := filter (fun w => negb (is_nil w)) (split_ws_all t).

(** [str::find(char)] as a split at the first occurrence *)
Fixpoint split_at_char (c : char) (t : text) : option (text * text) :=
  match t with
  | [] => None
  | x :: r =>
      if x =? c then Some ([], r)
      else option_map (fun p => (x :: fst p, snd p)) (split_at_char c r)
  end.

(** ASCII decimal digits *)
Definition is_digit (c : char) : bool := (48 <=? c) && (c <=? 57).
Definition digits_value (t : text) : Z := fold_left (fun n c => n * 10 + (c - 48)) t 0.

(** [str::parse::<uN>()] with maximum [m]: an optional '+', then one or more
    ASCII digits; out of range is an error *)
Definition parse_unsigned (m : Z) (t : text) : option Z :=
  let d := match t with 43 :: r => r | _ => t end in
  if is_nil d then None
  else if forallb is_digit d && (digits_value d <=? m) then Some (digits_value d) else None.
