(** Property theorems C36 and C41. *)
From Verif Require Import Base LaneModel IntModel IntProofs BitModel BitProofs BitExact.

(** C36.  simd_bit_cast keeps the bytes: byte j of lane i of the argument is byte j' of lane i' of the
    result if both have the same position in the object. *)
Theorem C36_simd_bit_cast_bytes :
  forall to from x r i j i' j' o o', wf from x -> simd_bit_cast to from x = Ok r ->
    nth_error x i = Some o -> (j < v_size from)%nat -> nth_error r i' = Some o' -> (j' < v_size to)%nat ->
    (i * v_size from + j = i' * v_size to + j')%nat -> nth_error o' j' = nth_error o j.
Proof. exact bit_cast_byte_positions. Qed.
Print Assumptions C36_simd_bit_cast_bytes.

Theorem C36_simd_bit_cast_same_object :
  forall to from x r, wf from x -> simd_bit_cast to from x = Ok r ->
    wf to r /\ bytes_of_lanes r = bytes_of_lanes x.
Proof. exact bit_cast_bytes. Qed.
Print Assumptions C36_simd_bit_cast_same_object.

(** The cast is defined for every bit pattern unless To is a mask. *)
Theorem C36_simd_bit_cast_defined :
  forall to from x, wf from x -> sizeof to = sizeof from -> v_bool to = false ->
    exists r, simd_bit_cast to from x = Ok r.
Proof. exact bit_cast_defined. Qed.
Print Assumptions C36_simd_bit_cast_defined.

Theorem C36_simd_bit_cast_round_trip :
  forall to from x r, wf from x -> simd_bit_cast to from x = Ok r -> simd_bit_cast from to r = Ok x.
Proof. exact bit_cast_round_trip. Qed.
Print Assumptions C36_simd_bit_cast_round_trip.

(** &, | and ^ on floating-point lanes, for element types without padding (the missing part is refuted below). *)
Theorem C36_float_operators_partial :
  forall l big o f size (a b : list object), bitwise o = Some f -> as_unsigned size <> None ->
    length a = length b -> (forall p : object, In p a \/ In p b -> length p = size /\ determinate p) ->
    exists r, float_bitop l big o size a b = Ok r /\ length r = length a
      /\ forall i p q, nth_error a i = Some p -> nth_error b i = Some q ->
           exists o', nth_error r i = Some o' /\ length o' = size
             /\ forall j x y, nth_error p j = Some (Some x) -> nth_error q j = Some (Some y) ->
                  nth_error o' j = Some (Some (f x y)).
Proof. exact float_bitop_bytes. Qed.
Print Assumptions C36_float_operators_partial.

Theorem C36_padding_refuted :
  exists a b, length a = length b /\ (forall p, In p a \/ In p b -> length p = 16%nat)
    /\ float_bitop lp64 false And 16 a b = Stop SUB.
Proof. exact float_bitop_padding_refuted. Qed.
Print Assumptions C36_padding_refuted.

(** Exactly when: some lane of an operand has an indeterminate byte. *)
Theorem C36_undefined_iff :
  forall l big o f size (a b : list object), bitwise o = Some f -> as_unsigned size <> None ->
    length a = length b ->
    (forall p : object, In p a \/ In p b -> length p = size /\ forall x, In (Some x) p -> 0 <= x < 256) ->
    (float_bitop l big o size a b = Stop SUB <-> exists p : object, (In p a \/ In p b) /\ In None p).
Proof. exact float_bitop_undefined_iff. Qed.
Print Assumptions C36_undefined_iff.

(** Two floats as one double and back; the sign of -0.0f isolated from a NaN with payload. *)
Example C36_cast_case :
  let x := [[Some 1; Some 2; Some 3; Some 4]; [Some 5; Some 6; Some 7; Some 8]] in
  simd_bit_cast (mkvty 1 8 false) (mkvty 2 4 false) x = Ok [concat x]
  /\ simd_bit_cast (mkvty 2 4 false) (mkvty 1 8 false) [concat x] = Ok x
  /\ simd_bit_cast (mkvty 1 1 true) (mkvty 1 1 false) [[Some 2]] = Stop SUB
  /\ simd_bit_cast (mkvty 1 8 false) (mkvty 1 4 false) [[Some 1; Some 2; Some 3; Some 4]] = Stop SIllFormed.
Proof. vm_compute. repeat split. Qed.

Example C36_operator_case :
  float_bitop lp64 false And 4 [[Some 0; Some 0; Some 0; Some 128]] [[Some 1; Some 0; Some 192; Some 255]]
    = Ok [[Some 0; Some 0; Some 0; Some 128]]
  /\ float_bitop lp64 true Xor 2 [[Some 255; Some 1]; [Some 3; Some 4]] [[Some 15; Some 1]; [Some 0; Some 5]]
    = Ok [[Some 240; Some 0]; [Some 3; Some 1]].
Proof. vm_compute. repeat split. Qed.

(** C41.  detail::bit_ceil returns the least power of two not below its argument, for every argument
    whose result fits, after at most one call more than the type has bits. *)
Theorem C41_bit_ceil :
  forall w x fuel, 0 < w -> 1 <= x <= 2 ^ (w - 1) -> (Z.to_nat w < fuel)%nat ->
    exists r, bit_ceil_rec fuel w x = Some r /\ least_pow2 x r.
Proof. exact bit_ceil_rec_least. Qed.
Print Assumptions C41_bit_ceil.

Example C41_case : bit_ceil_rec 33 32 5 = Some 8 /\ bit_ceil_rec 33 32 (2 ^ 30 + 1) = Some (2 ^ 31)
  /\ bit_ceil_rec 33 32 1 = Some 1 /\ bit_ceil_rec 33 32 (2 ^ 31 + 1) = Some 0.
Proof. vm_compute. repeat split. Qed.

(** For every argument: 0 for 0 and where the power of two does not fit. *)
Theorem C41_bit_ceil_every_argument :
  forall w x fuel, 0 < w -> 0 <= x < 2 ^ w -> (Z.to_nat w + 1 < fuel)%nat ->
    exists r, bit_ceil_rec fuel w x = Some r
      /\ ((1 <= x <= 2 ^ (w - 1) /\ least_pow2 x r) \/ ((x = 0 \/ 2 ^ (w - 1) < x) /\ r = 0)).
Proof. exact bit_ceil_rec_exact. Qed.
Print Assumptions C41_bit_ceil_every_argument.

(** The loop of stdx::detail::bit_ceil returns the least power of two, also for 0, and never ends where that
    does not fit. *)
Theorem C41_bit_ceil_loop :
  forall w x, 0 < w -> 0 <= x < 2 ^ w ->
    (x <= 2 ^ (w - 1) -> forall fuel, (Z.to_nat w <= fuel)%nat -> exists r, bit_ceil_loop fuel w x = Some r /\ least_pow2 x r)
    /\ (2 ^ (w - 1) < x -> forall fuel, bit_ceil_loop fuel w x = None).
Proof. exact bit_ceil_loop_exact. Qed.
Print Assumptions C41_bit_ceil_loop.

Example C41_loop_case : bit_ceil_loop 64 64 0 = Some 1 /\ bit_ceil_loop 64 64 5 = Some 8
  /\ bit_ceil_loop 64 64 (2 ^ 62 + 1) = Some (2 ^ 63) /\ bit_ceil_loop 1000 64 (2 ^ 63 + 1) = None.
Proof. vm_compute. repeat split. Qed.
