(** detail.h: bit_cast (236-255), meta::as_unsigned (121-164), detail::bit_ceil (184-187);
    simd.h: detail::bit_ceil (221-229); simd_bit.h: simd_bit_cast (15-29); simd_float_ops.h: &, |, ^ for floating-point simd (16-69).
    Objects are modelled by their object representation: a list of bytes, [None] for a padding
    byte (indeterminate value).  A simd<T, fixed_size<N>> is "T data[N]" (simd.h:1540), so its bytes
    are those of the lanes one after the other. *)
From Verif Require Import Base LaneModel IntModel.

Definition byte := option Z.
Notation object := (list byte).

(** The lanes of an array object with elements of [s] bytes. *)
Fixpoint lanes_of_bytes (n s : nat) (b : object) : list object :=
  match n with O => [] | S n' => firstn s b :: lanes_of_bytes n' s (skipn s b) end.
Definition bytes_of_lanes (v : list object) : object := concat v.

(** A type of simd: number of lanes and sizeof of the element type; [is_bool] for a simd_mask, whose
    elements are bool (valid representations 0 and 1 only). *)
Record vty := mkvty { v_lanes : nat; v_size : nat; v_bool : bool }.
Definition sizeof (t : vty) : nat := (v_lanes t * v_size t)%nat.

Definition valid_lane (t : vty) (o : object) : bool :=
  if v_bool t then match o with [Some b] => (b =? 0) || (b =? 1) | _ => false end else true.

(** detail::bit_cast<To>(x): the same bytes; undefined if they are no value of an element of To. *)
Definition bit_cast (to from : vty) (x : list object) : res (list object) :=
  if (sizeof to =? sizeof from)%nat then
    let r := lanes_of_bytes (v_lanes to) (v_size to) (bytes_of_lanes x) in
    if forallb (valid_lane to) r then Ok r else Stop SUB
  else Stop SIllFormed.
(** simd_bit_cast<To>(x); both types are trivially copyable. *)
Definition simd_bit_cast (to from : vty) (x : list object) : res (list object) := bit_cast to from x.

(** meta::as_unsigned_t<T>: the width in bits of the unsigned type with [size] bytes; the sizes of
    unsigned long long, long, int, short, char, __int128 are those of LP64. *)
Definition as_unsigned (size : nat) : option Z :=
  if existsb (Nat.eqb size) [8; 8; 4; 2; 1; 16]%nat then Some (8 * Z.of_nat size) else None.

(** Object representation of an unsigned integer. *)
Fixpoint decode_le (o : object) : option Z :=
  match o with
  | [] => Some 0
  | None :: _ => None
  | Some b :: o' => match decode_le o' with Some x => Some (b + 256 * x) | None => None end
  end.
Fixpoint encode_le (n : nat) (x : Z) : object :=
  match n with O => [] | S n' => Some (x mod 256) :: encode_le n' (x / 256) end.
Definition decode (big : bool) (o : object) : option Z := decode_le (if big then rev o else o).
Definition encode (big : bool) (n : nat) (x : Z) : object :=
  if big then rev (encode_le n x) else encode_le n x.

(** The unsigned lanes of an object (undefined if a byte is indeterminate, [bit.cast]). *)
Definition to_ints (big : bool) (v : list object) : res (list Z) := mapR (fun o => of_option (decode big o)) v.
Definition of_ints (big : bool) (s : nat) (v : list Z) : list object := map (encode big s) v.

(** operator&, |, ^: [size] = sizeof(T), [n] lanes. *)
Definition float_bitop (l : lang) (big : bool) (o : binop) (size : nat) (a b : list object) : res (list object) :=
  match as_unsigned size with
  | None => Stop SIllFormed
  | Some w =>
    let u := mkity w false in
    let V := mkvty (length a) size false in
    if (size <=? 8)%nat then
      (* bit_cast<V>(bit_cast<I>(a) op bit_cast<I>(b)) *)
      bindR (bindR (bit_cast V V a) (to_ints big)) (fun x =>
      bindR (bindR (bit_cast V V b) (to_ints big)) (fun y =>
      bindR (f_bin l u o x y) (fun r => bit_cast V V (of_ints big size r))))
    else
      gen (length a) (fun i =>
        bindR (subscript a (Z.of_nat i)) (fun p => bindR (subscript b (Z.of_nat i)) (fun q =>
        bindR (of_option (decode big p)) (fun x => bindR (of_option (decode big q)) (fun y =>
        bindR (expr_bin l u o x y) (fun r => Ok (encode big size r)))))))
  end.

(** detail::bit_ceil (detail.h:184-187) on an unsigned type with [w] bits:
    (x & (x - 1)) == 0 ? x : bit_ceil((x | (x >> 1)) + 1).  [None]: fuel exhausted. *)
Fixpoint bit_ceil_rec (fuel : nat) (w x : Z) : option Z :=
  match fuel with
  | O => None
  | S fuel' => if Z.land x ((x - 1) mod 2 ^ w) =? 0 then Some x
               else bit_ceil_rec fuel' w ((Z.lor x (Z.shiftr x 1) + 1) mod 2 ^ w)
  end.

(** simd.h detail::bit_ceil (221-229), size_t of [w] bits: r = 1; while (r < x) r <<= 1; return r.
    [None]: still looping after [fuel] tests. *)
Fixpoint bit_ceil_while (fuel : nat) (w x r : Z) : option Z :=
  match fuel with
  | O => None
  | S fuel' => if r <? x then bit_ceil_while fuel' w x ((r * 2) mod 2 ^ w) else Some r
  end.
Definition bit_ceil_loop (fuel : nat) (w x : Z) : option Z := bit_ceil_while fuel w x 1.
