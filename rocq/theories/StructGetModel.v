(** struct_reflect.h: detail::struct_get (119-371) and the functions on top of it (436-515).  An
    aggregate is the list of its non-static data members. *)
From Verif Require Import Base StructModel.

(** The specialisations: the size and the identifiers (the number n for xn; 0 and 1 for a and b) that
    both the structured binding and the result list, 134-370. *)
Definition get_table : list (nat * list nat) :=
  [
   (0, []); (1, [0]); (2, [0; 1]);
   (3, [0; 1; 2]);
   (4, [0; 1; 2; 3]);
   (5, [0; 1; 2; 3; 4]);
   (6, [0; 1; 2; 3; 4; 5]);
   (7, [0; 1; 2; 3; 4; 5; 6]);
   (8, [0; 1; 2; 3; 4; 5; 6; 7]);
   (9, [0; 1; 2; 3; 4; 5; 6; 7; 8]);
   (10, [0; 1; 2; 3; 4; 5; 6; 7; 8; 9]);
   (11, [0; 1; 2; 3; 4; 5; 6; 7; 8; 9; 10]);
   (12, [0; 1; 2; 3; 4; 5; 6; 7; 8; 9; 10; 11]);
   (13, [0; 1; 2; 3; 4; 5; 6; 7; 8; 9; 10; 11; 12]);
   (14, [0; 1; 2; 3; 4; 5; 6; 7; 8; 9; 10; 11; 12; 13]);
   (15, [0; 1; 2; 3; 4; 5; 6; 7; 8; 9; 10; 11; 12; 13; 14]);
   (16, [0; 1; 2; 3; 4; 5; 6; 7; 8; 9; 10; 11; 12; 13; 14; 15]);
   (17, [0; 1; 2; 3; 4; 5; 6; 7; 8; 9; 10; 11; 12; 13; 14; 15; 16]);
   (18, [0; 1; 2; 3; 4; 5; 6; 7; 8; 9; 10; 11; 12; 13; 14; 15; 16; 17]);
   (19, [0; 1; 2; 3; 4; 5; 6; 7; 8; 9; 10; 11; 12; 13; 14; 15; 16; 17; 18]);
   (20, [0; 1; 2; 3; 4; 5; 6; 7; 8; 9; 10; 11; 12; 13; 14; 15; 16; 17; 18; 19]);
   (21, [0; 1; 2; 3; 4; 5; 6; 7; 8; 9; 10; 11; 12; 13; 14; 15; 16; 17; 18; 19; 20]);
   (22, [0; 1; 2; 3; 4; 5; 6; 7; 8; 9; 10; 11; 12; 13; 14; 15; 16; 17; 18; 19; 20; 21]);
   (23, [0; 1; 2; 3; 4; 5; 6; 7; 8; 9; 10; 11; 12; 13; 14; 15; 16; 17; 18; 19; 20; 21; 22]);
   (24, [0; 1; 2; 3; 4; 5; 6; 7; 8; 9; 10; 11; 12; 13; 14; 15; 16; 17; 18; 19; 20; 21; 22; 23]);
   (25, [0; 1; 2; 3; 4; 5; 6; 7; 8; 9; 10; 11; 12; 13; 14; 15; 16; 17; 18; 19; 20; 21; 22; 23; 24]);
   (26, [0; 1; 2; 3; 4; 5; 6; 7; 8; 9; 10; 11; 12; 13; 14; 15; 16; 17; 18; 19; 20; 21; 22; 23; 24; 25]);
   (27, [0; 1; 2; 3; 4; 5; 6; 7; 8; 9; 10; 11; 12; 13; 14; 15; 16; 17; 18; 19; 20; 21; 22; 23; 24; 25; 26]);
   (28, [0; 1; 2; 3; 4; 5; 6; 7; 8; 9; 10; 11; 12; 13; 14; 15; 16; 17; 18; 19; 20; 21; 22; 23; 24; 25; 26; 27]);
   (29, [0; 1; 2; 3; 4; 5; 6; 7; 8; 9; 10; 11; 12; 13; 14; 15; 16; 17; 18; 19; 20; 21; 22; 23; 24; 25; 26; 27; 28]);
   (30, [0; 1; 2; 3; 4; 5; 6; 7; 8; 9; 10; 11; 12; 13; 14; 15; 16; 17; 18; 19; 20; 21; 22; 23; 24; 25; 26; 27; 28; 29]);
   (31, [0; 1; 2; 3; 4; 5; 6; 7; 8; 9; 10; 11; 12; 13; 14; 15; 16; 17; 18; 19; 20; 21; 22; 23; 24; 25; 26; 27; 28; 29; 30]);
   (32, [0; 1; 2; 3; 4; 5; 6; 7; 8; 9; 10; 11; 12; 13; 14; 15; 16; 17; 18; 19; 20; 21; 22; 23; 24; 25; 26; 27; 28; 29; 30; 31]);
   (33, [0; 1; 2; 3; 4; 5; 6; 7; 8; 9; 10; 11; 12; 13; 14; 15; 16; 17; 18; 19; 20; 21; 22; 23; 24; 25; 26; 27; 28; 29; 30; 31; 32]);
   (34, [0; 1; 2; 3; 4; 5; 6; 7; 8; 9; 10; 11; 12; 13; 14; 15; 16; 17; 18; 19; 20; 21; 22; 23; 24; 25; 26; 27; 28; 29; 30; 31; 32; 33]);
   (35, [0; 1; 2; 3; 4; 5; 6; 7; 8; 9; 10; 11; 12; 13; 14; 15; 16; 17; 18; 19; 20; 21; 22; 23; 24; 25; 26; 27; 28; 29; 30; 31; 32; 33; 34]);
   (36, [0; 1; 2; 3; 4; 5; 6; 7; 8; 9; 10; 11; 12; 13; 14; 15; 16; 17; 18; 19; 20; 21; 22; 23; 24; 25; 26; 27; 28; 29; 30; 31; 32; 33; 34; 35]);
   (37, [0; 1; 2; 3; 4; 5; 6; 7; 8; 9; 10; 11; 12; 13; 14; 15; 16; 17; 18; 19; 20; 21; 22; 23; 24; 25; 26; 27; 28; 29; 30; 31; 32; 33; 34; 35; 36]);
   (38, [0; 1; 2; 3; 4; 5; 6; 7; 8; 9; 10; 11; 12; 13; 14; 15; 16; 17; 18; 19; 20; 21; 22; 23; 24; 25; 26; 27; 28; 29; 30; 31; 32; 33; 34; 35; 36; 37]);
   (39, [0; 1; 2; 3; 4; 5; 6; 7; 8; 9; 10; 11; 12; 13; 14; 15; 16; 17; 18; 19; 20; 21; 22; 23; 24; 25; 26; 27; 28; 29; 30; 31; 32; 33; 34; 35; 36; 37; 38]);
   (40, [0; 1; 2; 3; 4; 5; 6; 7; 8; 9; 10; 11; 12; 13; 14; 15; 16; 17; 18; 19; 20; 21; 22; 23; 24; 25; 26; 27; 28; 29; 30; 31; 32; 33; 34; 35; 36; 37; 38; 39]);
   (41, [0; 1; 2; 3; 4; 5; 6; 7; 8; 9; 10; 11; 12; 13; 14; 15; 16; 17; 18; 19; 20; 21; 22; 23; 24; 25; 26; 27; 28; 29; 30; 31; 32; 33; 34; 35; 36; 37; 38; 39; 40]);
   (42, [0; 1; 2; 3; 4; 5; 6; 7; 8; 9; 10; 11; 12; 13; 14; 15; 16; 17; 18; 19; 20; 21; 22; 23; 24; 25; 26; 27; 28; 29; 30; 31; 32; 33; 34; 35; 36; 37; 38; 39; 40; 41]);
   (43, [0; 1; 2; 3; 4; 5; 6; 7; 8; 9; 10; 11; 12; 13; 14; 15; 16; 17; 18; 19; 20; 21; 22; 23; 24; 25; 26; 27; 28; 29; 30; 31; 32; 33; 34; 35; 36; 37; 38; 39; 40; 41; 42]);
   (44, [0; 1; 2; 3; 4; 5; 6; 7; 8; 9; 10; 11; 12; 13; 14; 15; 16; 17; 18; 19; 20; 21; 22; 23; 24; 25; 26; 27; 28; 29; 30; 31; 32; 33; 34; 35; 36; 37; 38; 39; 40; 41; 42; 43]);
   (45, [0; 1; 2; 3; 4; 5; 6; 7; 8; 9; 10; 11; 12; 13; 14; 15; 16; 17; 18; 19; 20; 21; 22; 23; 24; 25; 26; 27; 28; 29; 30; 31; 32; 33; 34; 35; 36; 37; 38; 39; 40; 41; 42; 43; 44]);
   (46, [0; 1; 2; 3; 4; 5; 6; 7; 8; 9; 10; 11; 12; 13; 14; 15; 16; 17; 18; 19; 20; 21; 22; 23; 24; 25; 26; 27; 28; 29; 30; 31; 32; 33; 34; 35; 36; 37; 38; 39; 40; 41; 42; 43; 44; 45]);
   (47, [0; 1; 2; 3; 4; 5; 6; 7; 8; 9; 10; 11; 12; 13; 14; 15; 16; 17; 18; 19; 20; 21; 22; 23; 24; 25; 26; 27; 28; 29; 30; 31; 32; 33; 34; 35; 36; 37; 38; 39; 40; 41; 42; 43; 44; 45; 46]);
   (48, [0; 1; 2; 3; 4; 5; 6; 7; 8; 9; 10; 11; 12; 13; 14; 15; 16; 17; 18; 19; 20; 21; 22; 23; 24; 25; 26; 27; 28; 29; 30; 31; 32; 33; 34; 35; 36; 37; 38; 39; 40; 41; 42; 43; 44; 45; 46; 47]);
   (49, [0; 1; 2; 3; 4; 5; 6; 7; 8; 9; 10; 11; 12; 13; 14; 15; 16; 17; 18; 19; 20; 21; 22; 23; 24; 25; 26; 27; 28; 29; 30; 31; 32; 33; 34; 35; 36; 37; 38; 39; 40; 41; 42; 43; 44; 45; 46; 47; 48]);
   (50, [0; 1; 2; 3; 4; 5; 6; 7; 8; 9; 10; 11; 12; 13; 14; 15; 16; 17; 18; 19; 20; 21; 22; 23; 24; 25; 26; 27; 28; 29; 30; 31; 32; 33; 34; 35; 36; 37; 38; 39; 40; 41; 42; 43; 44; 45; 46; 47; 48; 49])
  ]%nat.

Fixpoint specialisation (t : list (nat * list nat)) (n : nat) : res (list nat) :=
  match t with
  | [] => Stop SIllFormed
  | (k, names) :: t' => if Nat.eqb k n then Ok names else specialisation t' n
  end.

Section Get.
  Context {A : Type}.

  (** "auto && [names...] = obj": as many distinct names as members. *)
  Fixpoint distinct (names : list nat) : bool :=
    match names with [] => true | x :: r => negb (existsb (Nat.eqb x) r) && distinct r end.
  Definition bind_names (names : list nat) (obj : list A) : res (list (nat * A)) :=
    if Nat.eqb (length names) (length obj) && distinct names then Ok (combine names obj) else Stop SIllFormed.
  Fixpoint name_value (env : list (nat * A)) (x : nat) : res A :=
    match env with [] => Stop SIllFormed | (y, a) :: r => if Nat.eqb y x then Ok a else name_value r x end.

  (** detail::struct_get<n>::to_tuple_ref and to_tuple: forward_as_tuple(names...), {names...}. *)
  Definition d_to_tuple (n : nat) (obj : list A) : res (list A) :=
    bindR (specialisation get_table n) (fun names =>
    (* struct_get<0>, 134-146, ignores the object *)
    if Nat.eqb n 0 then Ok [] else
    bindR (bind_names names obj) (fun env => mapR (name_value env) names)).

  (** detail::struct_get<n>::get<N>; struct_get<0> has none. *)
  Definition d_get (n N : nat) (obj : list A) : res A :=
    bindR (specialisation get_table n) (fun names =>
    if Nat.eqb n 0 then Stop SIllFormed else
    if negb (Nat.ltb N n) then Stop SIllFormed else
    bindR (bind_names names obj) (fun env =>
    bindR (mapR (name_value env) names) (fun tup => match nth_error tup N with Some a => Ok a | None => Stop SIllFormed end))).

  (** vir::struct_get<N>, 436-443, vir::to_tuple and to_tuple_ref, 462-479, to_pair and to_pair_ref,
      501-515, where [size] is struct_size_v<T>. *)
  Definition struct_get (size : res (Z * list Z)) (N : nat) (obj : list A) : res A :=
    bindR size (fun '(n, _) => if Z.of_nat N <? n then d_get (Z.to_nat n) N obj else Stop SIllFormed).
  Definition to_tuple (size : res (Z * list Z)) (obj : list A) : res (list A) :=
    bindR size (fun '(n, _) => d_to_tuple (Z.to_nat n) obj).
  Definition to_pair (size : res (Z * list Z)) (obj : list A) : res (A * A) :=
    bindR size (fun '(n, _) =>
    if n =? 2 then
      bindR (bind_names [0; 1]%nat obj) (fun env =>
      bindR (name_value env 0) (fun a => bindR (name_value env 1) (fun b => Ok (a, b))))
    else Stop SIllFormed).
End Get.
