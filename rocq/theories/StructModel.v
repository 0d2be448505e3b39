(** struct_reflect.h: struct_size (72-117), and simd_version.h. *)
From Verif Require Import Base.

Definition sz (x : Z) : Z := x mod two64.

(** struct_size<T, Lo, Hi, N>, 72-117.  [valid n] is aggregate_with_n_members<T, n>.  The result is
    paired with the sizes probed (the instantiations of that concept), in order.  The arithmetic is
    in std::size_t; [fuel] bounds the template recursion and running out of it is [SDiverge]. *)
Fixpoint struct_size (valid : Z -> bool) (fuel : nat) (lo hi n : Z) : res (Z * list Z) :=
  match fuel with
  | O => Stop SDiverge
  | S fuel' =>
    let left_index := sz (lo + sz (n - lo) / 2) in
    let right_index := sz (n + sz (sz (hi - n) + 1) / 2) in
    if valid n then
      if n =? hi then Ok (n, [n])
      else bindR (struct_size valid fuel' (sz (n + 1)) hi right_index) (fun '(rs, ps) =>
           if rs =? 0 then Ok (n, n :: ps) else Ok (rs, n :: ps))
    else if n =? lo then
      if n =? hi then Ok (0, [n])
      else bindR (struct_size valid fuel' (sz (n + 1)) hi right_index) (fun '(r, ps) => Ok (r, n :: ps))
    else
      bindR (struct_size valid fuel' lo (sz (n - 1)) left_index) (fun '(ls, ps) =>
      if 0 <? ls then Ok (ls, n :: ps)
      else if n =? hi then Ok (0, n :: ps)
      else bindR (struct_size valid fuel' (sz (n + 1)) hi right_index) (fun '(r, ps2) => Ok (r, n :: ps ++ ps2)))
  end.

(** struct_size_v<T>: the default template arguments, 72; [sizeof] in bytes, CHAR_BIT = 8. *)
Definition struct_size_v (valid : Z -> bool) (fuel : nat) (sizeof : Z) : res (Z * list Z) :=
  struct_size valid fuel 0 (sz (sizeof * 8)) 8.

(** ** simd_version.h *)

(** The macros, 30-45, of a version number. *)
Definition version_major (v : Z) : Z := v / 65536.
Definition version_minor (v : Z) : Z := v mod 65536 / 256.
Definition version_patchlevel (v : Z) : Z := v mod 256.

Record version := mkversion { major : Z; minor : Z; patchlevel : Z }.

(** simd_version, 105-114, for an arbitrary VIR_SIMD_VERSION. *)
Definition simd_version (v : Z) : version := mkversion (version_major v) (version_minor v) (version_patchlevel v).

(** operator==, operator!=, 62-71. *)
Definition v_eq (a b : version) : bool :=
  (major a =? major b) && (minor a =? minor b) && (patchlevel a =? patchlevel b).
Definition v_ne (a b : version) : bool := negb (v_eq a b).

(** The defaulted operator<=>, 75-77: the members are compared in order. *)
Definition v_spaceship (a b : version) : comparison :=
  match major a ?= major b with
  | Eq => match minor a ?= minor b with Eq => patchlevel a ?= patchlevel b | c => c end
  | c => c
  end.

(** The four relational operators, either rewritten in terms of <=> ([spaceship]) or as written out
    in 78-101. *)
Definition v_lt (spaceship : bool) (a b : version) : bool :=
  if spaceship then match v_spaceship a b with Lt => true | _ => false end
  else (major a <? major b) || ((major a =? major b) && (minor a <? minor b))
       || ((major a =? major b) && (minor a =? minor b) && (patchlevel a <? patchlevel b)).
Definition v_le (spaceship : bool) (a b : version) : bool :=
  if spaceship then match v_spaceship a b with Gt => false | _ => true end
  else (major a <? major b) || ((major a =? major b) && (minor a <? minor b))
       || ((major a =? major b) && (minor a =? minor b) && (patchlevel a <=? patchlevel b)).
Definition v_gt (spaceship : bool) (a b : version) : bool :=
  if spaceship then match v_spaceship a b with Gt => true | _ => false end else v_lt false b a.
Definition v_ge (spaceship : bool) (a b : version) : bool :=
  if spaceship then match v_spaceship a b with Lt => false | _ => true end else v_le false b a.
